(** Proofs about the C types of the exported functions. *)
From Verif Require Import Base Meta_Types Names_Model Sig_Spec Sig_Model Sig_Claims.

(** ** Types *)

(** A metadata type and the C type of the Rust type it stands for. *)
Definition right (t : ty) (c : cty) : Prop :=
  sw_c (ci_type t) = c /\ py_c (pl_type t) = c /\ kt_c (ci_type t) = signless c /\
  untyped (rb_c (ci_type t)) = untyped c.

Lemma head_idem : forall t, head (head t) = head t.
Proof. induction t; cbn [head]; auto. Qed.
Lemma head_lift : forall t, lift (head t) = lift t.
Proof. induction t; cbn [head lift]; auto. Qed.
Lemma head_type_id : forall t, type_id (head t) = type_id t.
Proof. induction t; cbn [head type_id]; auto. Qed.
Lemma head_written : forall t, written (head t) = written t.
Proof. induction t; cbn [head written]; auto. Qed.
Lemma head_not_alias : forall t u, head t <> RAlias u.
Proof. induction t; cbn [head]; intros; try discriminate; auto. Qed.

Lemma right_buffer : forall t, ci_type t = FBuffer -> pl_type t = FBuffer -> right t rs_buffer.
Proof. intros t A B. unfold right. rewrite A, B. repeat split; reflexivity. Qed.

Lemma vec_right : forall t, right (vec_ty t) rs_buffer.
Proof. intros []; apply right_buffer; reflexivity. Qed.

Lemma lift_right : forall t c y, written t = true -> lift t = Some c -> type_id t = Some y -> right y c.
Proof.
  induction t; intros c y W L T; cbn [written lift type_id] in W, L, T; try discriminate;
    try (injection L as <-; injection T as <-; apply right_buffer; reflexivity).
  - injection L as <-. injection T as <-. destruct p; repeat split; reflexivity.
  - destruct (lift t) eqn:E; [|discriminate]. destruct (type_id t); [|discriminate].
    injection L as <-. cbn in T. injection T as <-. apply vec_right.
  - destruct (lift t) eqn:E; [|discriminate]. destruct (type_id t); [|discriminate].
    injection L as <-. cbn in T. injection T as <-. apply right_buffer; reflexivity.
  - destruct (lift t) eqn:E; [|discriminate]. destruct (type_id t); [|discriminate].
    injection L as <-. cbn in T. injection T as <-. apply right_buffer; reflexivity.
  - destruct (lift t1); [|discriminate]. destruct (lift t2); [|discriminate].
    destruct (type_id t1); [|discriminate]. destruct (type_id t2); [|discriminate].
    injection L as <-. injection T as <-. apply right_buffer; reflexivity.
  - assert (D : (exists mp n, head t = RDynCallback mp n) \/
                (lift t = Some c /\ option_map TBox (type_id t) = Some y)).
    { destruct (head t); try (right; split; assumption). left; eauto. }
    destruct D as [(mp & n & E)|(L' & T')].
    + rewrite E in L, T. injection L as <-. injection T as <-. repeat split; reflexivity.
    + destruct (type_id t) as [y'|]; [|discriminate]. cbn in T'. injection T' as <-.
      destruct (IHt _ _ W L' eq_refl) as (A & B & C & D). repeat split; assumption.
  - rewrite <- head_type_id in T. destruct (head t); try discriminate; cbn in T;
      injection L as <-; injection T as <-; repeat split; reflexivity.
  - destruct (type_id t) as [y'|]; [|discriminate]. cbn in T. injection T as <-.
    destruct (IHt _ _ W L eq_refl) as (A & B & C & D). repeat split; assumption.
  - eauto.
Qed.

(** A lifted type is always described. *)
Lemma lift_described : forall t c, lift t = Some c -> exists y, type_id t = Some y.
Proof.
  induction t; intros c L; cbn [lift type_id] in *; try discriminate; eauto.
  - destruct (lift t); [|discriminate]. destruct (IHt _ eq_refl) as [y ->]. cbn. eauto.
  - destruct (lift t); [|discriminate]. destruct (IHt _ eq_refl) as [y ->]. cbn. eauto.
  - destruct (lift t); [|discriminate]. destruct (IHt _ eq_refl) as [y ->]. cbn. eauto.
  - destruct (lift t1); [|discriminate]. destruct (lift t2); [|discriminate].
    destruct (IHt1 _ eq_refl) as [y ->]. destruct (IHt2 _ eq_refl) as [z ->]. eauto.
  - assert (G : lift t = Some c -> exists y, option_map TBox (type_id t) = Some y).
    { intro H. destruct (IHt _ H) as [y ->]. cbn. eauto. }
    destruct (head t); eauto.
  - rewrite <- head_type_id. destruct (head t); try discriminate; cbn; eauto.
  - destruct (IHt _ L) as [y ->]. cbn. eauto.
Qed.

Lemma lift_ref_written : forall t, written t = true -> written (lift_ref t) = true.
Proof.
  intros t W. unfold lift_ref. pose proof (head_written t) as H. rewrite W in H.
  destruct (head t); cbn in *; assumption.
Qed.

(** What a reference to [t] is described as. *)
Lemma lift_ref_id : forall t, type_id (lift_ref t) = type_id t.
Proof.
  intro t. unfold lift_ref. rewrite <- (head_type_id t). destruct (head t) eqn:E; cbn [type_id]; try reflexivity;
    rewrite <- head_type_id, E; reflexivity.
Qed.

Lemma vec_bytes : forall t, option_map vec_ty (type_id t) = Some TBytes -> written t = true ->
  (exists c, lift t = Some c) -> head t = RPrim PU8.
Proof.
  intros t H W [c L].
  assert (T : type_id t = Some TU8).
  { destruct (type_id t) as [[]|]; cbn in H; try discriminate; reflexivity. }
  rewrite <- head_type_id in T. rewrite <- head_written in W. rewrite <- head_lift in L.
  pose proof (head_not_alias t) as N.
  destruct (head t) as [p| | | | |u|u|u|u|u v|u|u|mp n|mp n|mp n|mp n k|mp n|mp n u| |u v| | |u];
    cbn [type_id] in T; try discriminate.
  - destruct p; cbn in T; try discriminate. reflexivity.
  - destruct (type_id u) as [[]|]; cbn in T; discriminate.
  - destruct (type_id u) as [[]|]; cbn in T; discriminate.
  - destruct (type_id u) as [[]|]; cbn in T; discriminate.
  - destruct (type_id u), (type_id v); cbn in T; discriminate.
  - destruct (head u); try discriminate; destruct (type_id u); cbn in T; discriminate.
  - cbn [lift] in L. rewrite <- head_type_id in T. destruct (head u); discriminate.
  - destruct (type_id u); cbn in T; discriminate.
  - exfalso. eapply N. reflexivity.
Qed.

(** Only bytes are described as bytes. *)
Lemma bytes_id : forall t c, written t = true -> lift (lift_ref t) = Some c ->
  type_id (lift_ref t) = Some TBytes -> bytes_like t = true.
Proof.
  intros t c W L T. rewrite lift_ref_id in T. unfold lift_ref in L. unfold bytes_like.
  rewrite <- head_type_id in T. pose proof (head_written t) as HW. rewrite W in HW.
  pose proof (head_lift t) as HL. pose proof (head_not_alias t) as N.
  destruct (head t) as [p| | | | |u|u|u|u|u v|u|u|mp n|mp n|mp n|mp n k|mp n|mp n u| |u v| | |u];
    cbn [type_id] in T; try discriminate.
  - destruct p; discriminate.
  - rewrite <- HL in L. cbn [lift] in L. destruct (lift u) eqn:E; [|discriminate].
    rewrite (vec_bytes u T HW (ex_intro _ _ E)). reflexivity.
  - cbn [lift] in L. destruct (lift u) eqn:E; [|discriminate].
    rewrite (vec_bytes u T HW (ex_intro _ _ E)). reflexivity.
  - destruct (type_id u); cbn in T; discriminate.
  - destruct (type_id u); cbn in T; discriminate.
  - destruct (type_id u), (type_id v); cbn in T; discriminate.
  - destruct (head u); try discriminate; destruct (type_id u); cbn in T; discriminate.
  - rewrite <- HL in L. cbn [lift] in L. rewrite <- head_type_id in T. destruct (head u); discriminate.
  - destruct (type_id u); cbn in T; discriminate.
  - exfalso. eapply N. reflexivity.
Qed.
Lemma bytes_described : forall t, bytes_like t = true -> type_id (lift_ref t) = Some TBytes /\ lift (lift_ref t) = Some rs_buffer.
Proof.
  intros t H. rewrite lift_ref_id, <- head_type_id. unfold bytes_like in H. unfold lift_ref.
  pose proof (head_lift t) as HL.
  destruct (head t) as [p| | | | |u|u|u|u|u v|u|u|mp n|mp n|mp n|mp n k|mp n|mp n u| |u v| | |u]; try discriminate;
    cbn [type_id lift] in *; rewrite <- (head_type_id u), <- (head_lift u) in *;
    destruct (head u) as [[]| | | | | | | | | | | | | | | | | | | | | |]; try discriminate; cbn in *; auto.
Qed.

(** ** Arguments *)
Definition arg_right (p : param) (c : cty) : Prop :=
  sw_c (ci_arg p) = c /\ py_c (pl_arg p) = c /\ kt_c (ci_arg p) = signless c.

Lemma arg_agrees : forall a c p, written (ra_ty a) = true -> hidden_bytes a = false ->
  param_c a = Some c -> arg_meta a = Some p ->
  arg_right p c /\ (borrows_bytes a = false -> untyped (rb_c (ci_arg p)) = untyped c).
Proof.
  intros [n r t] c p W H C M. unfold param_c, arg_meta, named_arg, hidden_bytes, borrows_bytes in *.
  cbn [ra_ref ra_ty ra_name] in *. destruct r.
  - destruct (type_id t) as [y|] eqn:T; [|discriminate]. cbn in M. injection M as <-.
    destruct (lift_right t c y W C T) as (A & B & D & E).
    unfold arg_right, ci_arg, pl_arg, borrowed_bytes. cbn [p_ty p_pass].
    rewrite Bool.andb_false_r. auto.
  - destruct (is_u8_slice t) eqn:U.
    + cbn in C, M. injection C as <-. injection M as <-. split; [repeat split; reflexivity|discriminate].
    + destruct (type_id (lift_ref t)) as [y|] eqn:T; [|discriminate]. cbn in M. injection M as <-.
      destruct (lift_right _ c y (lift_ref_written t W) C T) as (A & B & D & E).
      unfold arg_right, ci_arg, pl_arg, borrowed_bytes. cbn [p_ty p_pass].
      assert (N : is_bytes y = false).
      { destruct y; try reflexivity. exfalso. rewrite (bytes_id t c W C T) in H. discriminate. }
      rewrite N. cbn [andb]. auto.
  - destruct (is_u8_slice t) eqn:U; [|discriminate].
    cbn in C, M. injection C as <-. injection M as <-. split; [repeat split; reflexivity|discriminate].
Qed.

(** An argument that hides bytes is declared with another type than it has. *)
Lemma arg_disagrees : forall a c p, hidden_bytes a = true -> param_c a = Some c -> arg_meta a = Some p ->
  sw_c (ci_arg p) <> c /\ py_c (pl_arg p) <> c /\ kt_c (ci_arg p) <> signless c /\
  untyped (rb_c (ci_arg p)) <> untyped c.
Proof.
  intros [n r t] c p H C M. unfold hidden_bytes, param_c, arg_meta, named_arg in *.
  cbn [ra_ref ra_ty ra_name] in *. destruct r; try discriminate.
  apply andb_prop in H. destruct H as [B U]. apply Bool.negb_true_iff in U. rewrite U in *.
  destruct (bytes_described t B) as [T L]. rewrite T in M. rewrite L in C. cbn in M.
  injection C as <-. injection M as <-.
  unfold ci_arg, pl_arg, borrowed_bytes. cbn. repeat split; discriminate.
Qed.

(** ** Lists *)
Lemma mapM_split : forall {A B C} (f : A -> option B) (g : A -> option C) l bs cs,
  mapM f l = Some bs -> mapM g l = Some cs ->
  Forall2 (fun a bc => f a = Some (fst bc) /\ g a = Some (snd bc)) l (combine bs cs) /\ length bs = length cs.
Proof.
  induction l as [|a l IH]; cbn; intros bs cs F G.
  - injection F as <-. injection G as <-. split; [constructor|reflexivity].
  - destruct (f a) eqn:Ea; [|discriminate]. destruct (mapM f l); [|discriminate].
    destruct (g a) eqn:Ga; [|discriminate]. destruct (mapM g l); [|discriminate].
    injection F as <-. injection G as <-. destruct (IH _ _ eq_refl eq_refl) as [H L].
    cbn. split; [constructor; auto|congruence].
Qed.
Lemma args_agree : forall l ps cs, Forall (fun a => written (ra_ty a) = true /\ hidden_bytes a = false) l ->
  mapM arg_meta l = Some ps -> mapM param_c l = Some cs ->
  map (fun p => sw_c (ci_arg p)) ps = cs /\ map (fun p => py_c (pl_arg p)) ps = cs /\
  map (fun p => kt_c (ci_arg p)) ps = map signless cs /\
  (existsb borrows_bytes l = false -> map (fun p => untyped (rb_c (ci_arg p))) ps = map untyped cs).
Proof.
  induction l as [|a l IH]; cbn [mapM]; intros ps cs H M C.
  - injection M as <-. injection C as <-. auto.
  - destruct (arg_meta a) as [p|] eqn:Ma; [|discriminate]. destruct (mapM arg_meta l); [|discriminate].
    destruct (param_c a) as [c|] eqn:Ca; [|discriminate]. destruct (mapM param_c l); [|discriminate].
    injection M as <-. injection C as <-. inversion_clear H as [|? ? [W Hd] Hl].
    destruct (IH _ _ Hl eq_refl eq_refl) as (X & Y & Z & V).
    destruct (arg_agrees a c p W Hd Ca Ma) as ((P & Q & R) & S').
    cbn [map existsb]. rewrite P, Q, R, X, Y, Z. repeat split; auto.
    intro N. apply Bool.orb_false_elim in N. destruct N as [N1 N2]. rewrite (S' N1), (V N2). reflexivity.
Qed.

(** ** Results *)
Definition ret_right (r : option ty) (c : option cty) : Prop :=
  option_map (fun t => sw_c (ci_type t)) r = c /\ option_map (fun t => py_c (pl_type t)) r = c /\
  option_map (fun t => kt_ret (ci_type t)) r = option_map widened c /\
  option_map (fun t => untyped (rb_c (ci_type t))) r = option_map untyped c /\
  option_map (fun t => kt_c (ci_type t)) r = option_map signless c.

Lemma kt_ret_right : forall t, sw_c (ci_type t) = sw_c (ci_type t) -> kt_ret (ci_type t) = widened (sw_c (ci_type t)).
Proof. intros t _. induction t; cbn; try reflexivity; assumption. Qed.
Lemma right_ret : forall y c, right y c -> ret_right (Some y) (Some c).
Proof.
  intros y c (A & B & C & D). unfold ret_right. cbn [option_map]. rewrite A, B, D, C.
  pose proof (kt_ret_right y eq_refl) as K. rewrite A in K. rewrite K. auto.
Qed.

Lemma lower_plain : forall t c y, written t = true -> head t <> RUnit -> (forall u e, head t <> RResult u e) ->
  lower_return t = Some c -> type_id t = Some y -> ret_right (Some y) c.
Proof.
  induction t; intros c y W U R L T; cbn [head lower_return written] in *;
    try (exfalso; apply U; reflexivity); try (exfalso; eapply R; reflexivity);
    try (match type of L with option_map Some ?x = _ =>
           let E := fresh in destruct x as [c'|] eqn:E; [|discriminate]; cbn [option_map] in L; injection L as <-;
           apply right_ret; eapply lift_right; [|exact E|exact T]; cbn [written]; assumption end).
  - injection L as <-. cbn in T. injection T as <-. repeat split; reflexivity.
  - apply (IHt _ _ W U R L T).
Qed.
Lemma lift_plain : forall t c y, written t = true -> head t <> RUnit -> (forall u e, head t <> RResult u e) ->
  lift_return t = Some c -> type_id t = Some y -> ret_right (Some y) c.
Proof.
  induction t; intros c y W U R L T; cbn [head lift_return written] in *;
    try (exfalso; apply U; reflexivity); try (exfalso; eapply R; reflexivity);
    try (match type of L with option_map Some ?x = _ =>
           let E := fresh in destruct x as [c'|] eqn:E; [|discriminate]; cbn [option_map] in L; injection L as <-;
           apply right_ret; eapply lift_right; [|exact E|exact T]; cbn [written]; assumption end).
  apply (IHt _ _ W U R L T).
Qed.
Lemma head_lower_return : forall t, lower_return (head t) = lower_return t.
Proof. induction t; cbn [head lower_return]; auto. Qed.
Lemma head_lift_return : forall t, lift_return (head t) = lift_return t.
Proof. induction t; cbn [head lift_return]; auto. Qed.

Ltac by_head t H := destruct (head t) eqn:H.

Lemma ret_nil : ret_right None None.
Proof. repeat split; reflexivity. Qed.

Lemma return_agrees : forall t c r, written t = true -> lower_return t = Some c -> return_id t = Some r ->
  ret_right r c.
Proof.
  intros t c r W L T. unfold return_id in T.
  assert (D : head t = RUnit \/ (exists u e, head t = RResult u e) \/
              (head t <> RUnit /\ (forall u e, head t <> RResult u e) /\ option_map Some (type_id t) = Some r)).
  { by_head t H; eauto; right; right; repeat split; try (intros; discriminate); exact T. }
  destruct D as [H|[(u & e & H)|(U & R & T')]].
  - rewrite H in T. injection T as <-. rewrite <- head_lower_return, H in L. injection L as <-. apply ret_nil.
  - rewrite H in T. rewrite <- head_lower_return, H in L. cbn [lower_return] in L.
    rewrite <- head_written, H in W. cbn [written] in W. apply andb_prop in W. destruct W as [W _].
    assert (D : head u = RUnit \/ (head u <> RUnit /\ option_map Some (type_id u) = Some r)).
    { by_head u Hu; auto; right; split; try discriminate; exact T. }
    destruct D as [Hu|[Hu T']].
    + rewrite Hu in T. injection T as <-. rewrite <- head_lower_return, Hu in L. injection L as <-. apply ret_nil.
    + destruct (type_id u) as [y|] eqn:Y; [|discriminate]. injection T' as <-.
      apply (lower_plain u c y W Hu); auto.
      intros a b E. rewrite <- head_type_id, E in Y. discriminate.
  - destruct (type_id t) as [y|] eqn:Y; [|discriminate]. injection T' as <-.
    apply (lower_plain t c y W U R L Y).
Qed.
Lemma lift_return_agrees : forall t c r, written t = true -> lift_return t = Some c -> return_id t = Some r ->
  ret_right r c.
Proof.
  intros t c r W L T. unfold return_id in T.
  assert (D : head t = RUnit \/ (exists u e, head t = RResult u e) \/
              (head t <> RUnit /\ (forall u e, head t <> RResult u e) /\ option_map Some (type_id t) = Some r)).
  { by_head t H; eauto; right; right; repeat split; try (intros; discriminate); exact T. }
  destruct D as [H|[(u & e & H)|(U & R & T')]].
  - rewrite H in T. injection T as <-. rewrite <- head_lift_return, H in L. injection L as <-. apply ret_nil.
  - rewrite H in T. rewrite <- head_lift_return, H in L. cbn [lift_return] in L.
    rewrite <- head_written, H in W. cbn [written] in W. apply andb_prop in W. destruct W as [W _].
    assert (D : head u = RUnit \/ (head u <> RUnit /\ option_map Some (type_id u) = Some r)).
    { by_head u Hu; auto; right; split; try discriminate; exact T. }
    destruct D as [Hu|[Hu T']].
    + rewrite Hu in T. injection T as <-. rewrite <- head_lift_return, Hu in L. injection L as <-. apply ret_nil.
    + destruct (type_id u) as [y|] eqn:Y; [|discriminate]. injection T' as <-.
      apply (lift_plain u c y W Hu); auto.
      intros a b E. rewrite <- head_type_id, E in Y. discriminate.
  - destruct (type_id t) as [y|] eqn:Y; [|discriminate]. injection T' as <-.
    apply (lift_plain t c y W U R L Y).
Qed.


(** From the parts to the whole. *)
Definition self_of (k : ckind) : option ty := match k with CMethod t => Some t | _ => None end.
Definition opt_list {A} (o : option A) : list A := match o with Some x => [x] | None => [] end.
Definition ret_of (c : csig) : option ty := c_ret c.

Lemma whole : forall c rc ps r,
  match self_of (c_kind c) with Some t => exists k, rc = [k] /\ right t k | None => rc = [] end ->
  map (fun p => sw_c (ci_arg p)) (c_inputs c) = ps -> map (fun p => py_c (pl_arg p)) (c_inputs c) = ps ->
  map (fun p => kt_c (ci_arg p)) (c_inputs c) = map signless ps ->
  ret_right (c_ret c) r -> (c_kind c = CConstructor -> r = Some cu64) ->
  let f := if c_async c then CFn (rc ++ ps) (Some cu64) else CFn (rc ++ ps ++ [CPtr rs_status]) r in
  declared c f /\
  (map (fun p => untyped (rb_c (ci_arg p))) (c_inputs c) = map untyped ps ->
   untyped (rb_fn (ci_fn c)) = untyped f).
Proof.
  intros [k a ins ret] rc ps r S' A B C (R1 & R2 & R3 & R4 & R5) K. cbn [c_kind c_inputs c_ret c_async] in *.
  assert (X : forall g : fty -> cty, map g (map ci_arg ins) = map (fun p => g (ci_arg p)) ins)
    by (intro g; apply map_map).
  assert (Y : map py_c (map pl_arg ins) = ps) by (rewrite map_map; exact B).
  assert (Sw : map sw_c (map ci_arg ins) = ps) by (rewrite X; exact A).
  assert (Kt : map kt_c (map ci_arg ins) = map signless ps) by (rewrite X; exact C).
  assert (O : forall (g : fty -> cty) (h : ty -> fty), option_map g (option_map h ret) = option_map (fun t => g (h t)) ret)
    by (intros; destruct ret; reflexivity).
  assert (Z : map untyped (map rb_c (map ci_arg ins)) = map (fun p => untyped (rb_c (ci_arg p))) ins)
    by (rewrite !map_map; reflexivity).
  assert (OU : option_map untyped (option_map (fun t => rb_c (ci_type t)) ret) = option_map untyped r)
    by (rewrite <- R4; destruct ret; reflexivity).
  unfold declared, ci_fn, pl_fn. cbn [c_kind c_inputs c_ret c_async].
  destruct k as [|self|]; cbn [self_of] in S'.
  - subst rc. destruct a; cbn [sw_fn py_fn kt_fn rb_fn ff_args ff_ret ff_status app option_map untyped jvm_fn].
    + unfold sw_fn, py_fn, kt_fn, rb_fn; cbn [ff_args ff_ret ff_status option_map]. rewrite !app_nil_r, Sw, Y, Kt.
      repeat split. cbn [untyped]. rewrite Z. intros ->. reflexivity.
    + unfold sw_fn, py_fn, kt_fn, rb_fn; cbn [ff_args ff_ret ff_status]. rewrite !O, Sw, Y, Kt, R1, R2, R3.
      repeat split; cbn [jvm_fn].
      * rewrite map_app. reflexivity.
      * cbn [untyped]. rewrite !map_app, Z, OU. intros ->. reflexivity.
  - destruct S' as (kc & -> & (S1 & S2 & S3 & S4)).
    destruct a; unfold sw_fn, py_fn, kt_fn, rb_fn; cbn [ff_args ff_ret ff_status app map option_map].
    + rewrite !app_nil_r, Sw, Y, Kt, S1, S2, S3.
      repeat split. cbn [untyped map]. rewrite Z, S4. intros ->. reflexivity.
    + rewrite !O, Sw, Y, Kt, R1, R2, R3, S1, S2, S3.
      repeat split; cbn [jvm_fn map].
      * rewrite map_app. reflexivity.
      * cbn [untyped map]. rewrite !map_app, Z, OU, S4. intros ->. reflexivity.
  - subst rc. rewrite (K eq_refl) in *.
    destruct a; unfold sw_fn, py_fn, kt_fn, rb_fn; cbn [ff_args ff_ret ff_status app map option_map].
    + rewrite !app_nil_r, Sw, Y, Kt.
      repeat split. cbn [untyped map]. rewrite Z. intros ->. reflexivity.
    + rewrite Sw, Y, Kt. repeat split; cbn [jvm_fn map].
      * rewrite map_app. reflexivity.
      * cbn [untyped map]. rewrite !map_app, Z. intros ->. reflexivity.
Qed.

Lemma kind_self : forall k r ck rc, kind_meta k r = Some ck -> receiver_c k = Some rc ->
  match k with KMethod t | KConstructor t => written t | KFunction => true end = true ->
  match self_of ck with Some t => exists c, rc = [c] /\ right t c | None => rc = [] end.
Proof.
  intros [|t|t] r ck rc K R W; cbn [kind_meta receiver_c] in *.
  - injection K as <-. injection R as <-. reflexivity.
  - destruct (type_id t) as [y|] eqn:T; [|discriminate]. cbn in K. injection K as <-.
    destruct (lift (lift_ref t)) as [c|] eqn:L; [|discriminate]. cbn in R. injection R as <-.
    cbn [self_of]. exists c. split; [reflexivity|].
    apply (lift_right (lift_ref t)); [apply lift_ref_written; exact W|exact L|rewrite lift_ref_id; exact T].
  - injection R as <-. destruct (type_id t) as [[]|]; try discriminate. destruct r as [[]|]; try discriminate.
    destruct imp0; [|discriminate]. destruct (bytes_eqb name name0); [|discriminate]. injection K as <-. reflexivity.
Qed.
Lemma kind_constructor : forall k r c, kind_meta k r = Some CConstructor -> ret_right r c -> c = Some cu64.
Proof.
  intros [|t|t] r c K R; cbn [kind_meta] in K; try discriminate.
  - destruct (type_id t); discriminate.
  - destruct (type_id t) as [[]|]; try discriminate. destruct r as [[]|]; try discriminate.
    destruct R as (R & _). symmetry. exact R.
Qed.

Lemma macro_parts : forall s f m, macro_fn s = Some f -> macro_meta s = Some m ->
  exists rc ps r,
    receiver_c (s_kind s) = Some rc /\ mapM param_c (s_args s) = Some ps /\ lower_return (s_ret s) = Some r /\
    mapM arg_meta (s_args s) = Some (c_inputs m) /\ return_id (s_ret s) = Some (c_ret m) /\
    kind_meta (s_kind s) (c_ret m) = Some (c_kind m) /\ c_async m = s_async s /\
    f = (if c_async m then CFn (rc ++ ps) (Some cu64) else CFn (rc ++ ps ++ [CPtr rs_status]) r).
Proof.
  intros s f m F M. unfold macro_fn in F. unfold macro_meta in M.
  destruct (receiver_c (s_kind s)) as [rc|]; [|discriminate].
  destruct (mapM param_c (s_args s)) as [ps|]; [|discriminate].
  destruct (lower_return (s_ret s)) as [r|]; [|discriminate].
  destruct (async_ok s); [|discriminate].
  destruct (mapM arg_meta (s_args s)) as [ms|]; [|discriminate].
  destruct (return_id (s_ret s)) as [ri|]; [|discriminate].
  destruct (kind_meta (s_kind s) ri) as [k|] eqn:K; [|discriminate].
  injection M as <-. injection F as <-. cbn [c_inputs c_ret c_kind c_async].
  exists rc, ps, r. repeat split; auto.
Qed.

Lemma macro_agrees : forall s f m, written_sig s = true -> macro_fn s = Some f -> macro_meta s = Some m ->
  existsb hidden_bytes (s_args s) = false ->
  declared m f /\ (existsb borrows_bytes (s_args s) = false -> untyped (rb_fn (ci_fn m)) = untyped f).
Proof.
  intros s f m W F M H. destruct (macro_parts s f m F M) as (rc & ps & r & RC & PS & R & AM & RI & K & _ & ->).
  unfold written_sig in W. apply andb_prop in W. destruct W as [W WK]. apply andb_prop in W. destruct W as [WA WR].
  assert (P : Forall (fun a => written (ra_ty a) = true /\ hidden_bytes a = false) (s_args s)).
  { apply Forall_forall. intros a Ia. split; [exact (proj1 (forallb_forall _ _) WA a Ia)|].
    destruct (hidden_bytes a) eqn:Ha; [|reflexivity].
    rewrite <- H. symmetry. apply existsb_exists. eauto. }
  destruct (args_agree _ _ _ P AM PS) as (A & B & C & D).
  pose proof (return_agrees _ _ _ WR R RI) as RR.
  destruct (whole m rc ps r (kind_self _ _ _ _ K RC WK) A B C RR) as [G V].
  { intro E. rewrite E in K. exact (kind_constructor _ _ _ K RR). }
  split; [exact G|]. intro N. apply V. apply D, N.
Qed.

(** ... and otherwise they differ, in every language. *)
Lemma args_disagree : forall (g : param -> cty) (v : cty -> cty) l ps cs,
  (forall a c p, hidden_bytes a = true -> param_c a = Some c -> arg_meta a = Some p -> g p <> v c) ->
  existsb hidden_bytes l = true -> mapM arg_meta l = Some ps -> mapM param_c l = Some cs ->
  map g ps <> map v cs.
Proof.
  intros g v. induction l as [|a l IH]; intros ps cs G H M C; [discriminate|].
  cbn [mapM existsb] in *.
  destruct (arg_meta a) as [p|] eqn:Ma; [|discriminate]. destruct (mapM arg_meta l); [|discriminate].
  destruct (param_c a) as [c|] eqn:Ca; [|discriminate]. destruct (mapM param_c l); [|discriminate].
  injection M as <-. injection C as <-. cbn [map]. intro E. injection E as E1 E2.
  apply Bool.orb_prop in H. destruct H as [H|H].
  - exact (G a c p H Ca Ma E1).
  - exact (IH _ _ G H eq_refl eq_refl E2).
Qed.
Lemma app_same_length : forall {A} (a b c d : list A), length a = length c -> a ++ b = c ++ d -> a = c /\ b = d.
Proof.
  induction a as [|x a IH]; intros b [|y c] d L E; cbn in *; try discriminate; auto.
  injection E as -> E. destruct (IH b c d ltac:(congruence) E) as [-> ->]. auto.
Qed.
Lemma mapM_length : forall {A B} (f : A -> option B) l r, mapM f l = Some r -> length r = length l.
Proof.
  induction l as [|a l IH]; intros r H; cbn in H.
  - injection H as <-. reflexivity.
  - destruct (f a); [|discriminate]. destruct (mapM f l); [|discriminate]. injection H as <-. cbn. rewrite (IH _ eq_refl). reflexivity.
Qed.
Lemma fn_args : forall a r a' r', CFn a r = CFn a' r' -> a = a'.
Proof. intros. congruence. Qed.

Lemma macro_disagrees : forall s f m, written_sig s = true -> macro_fn s = Some f -> macro_meta s = Some m ->
  existsb hidden_bytes (s_args s) = true ->
  sw_fn (ci_fn m) <> f /\ py_fn (pl_fn m) <> f /\ kt_fn (ci_fn m) <> jvm_fn f /\
  untyped (rb_fn (ci_fn m)) <> untyped f.
Proof.
  intros s f m W F M H. destruct (macro_parts s f m F M) as (rc & ps & r & RC & PS & R & AM & RI & K & _ & ->).
  unfold written_sig in W. apply andb_prop in W. destruct W as [W WK].
  pose proof (kind_self _ _ _ _ K RC WK) as S'.
  assert (L : length (c_inputs m) = length ps) by (rewrite (mapM_length _ _ _ AM), (mapM_length _ _ _ PS); reflexivity).
  assert (Gen : forall (g : fty -> cty) (v : cty -> cty) (at_ : ty -> fty) (aa : param -> fty) t1 t2,
    (forall a c p, hidden_bytes a = true -> param_c a = Some c -> arg_meta a = Some p -> g (aa p) <> v c) ->
    map g (match c_kind m with CMethod self => [at_ self] | _ => [] end ++ map aa (c_inputs m)) ++ t1 <>
    map v rc ++ map v ps ++ t2).
  { intros g v at_ aa t1 t2 G E. rewrite map_app, <- app_assoc in E.
    apply app_same_length in E.
    2:{ rewrite !map_length. destruct (c_kind m); cbn [self_of] in S'; [subst; reflexivity| |subst; reflexivity].
        destruct S' as (? & -> & _). reflexivity. }
    destruct E as [_ E]. apply app_same_length in E; [|rewrite !map_length; exact L].
    destruct E as [E _]. rewrite map_map in E.
    exact (args_disagree _ v _ _ _ G H AM PS E). }
  assert (DIS := arg_disagrees).
  unfold ci_fn, pl_fn. repeat split; intro E.
  - refine (Gen sw_c (fun c => c) ci_type ci_arg (if c_async m then [] else [CPtr sw_status])
             (if c_async m then [] else [CPtr sw_status]) _ _).
    + intros a c p X Y Z. exact (proj1 (DIS a c p X Y Z)).
    + rewrite !map_id. destruct (c_async m); apply fn_args in E; rewrite ?app_nil_r in *; exact E.
  - refine (Gen py_c (fun c => c) pl_type pl_arg (if c_async m then [] else [CPtr py_status])
             (if c_async m then [] else [CPtr py_status]) _ _).
    + intros a c p X Y Z. exact (proj1 (proj2 (DIS a c p X Y Z))).
    + rewrite !map_id. destruct (c_async m); apply fn_args in E; rewrite ?app_nil_r in *; exact E.
  - refine (Gen kt_c signless ci_type ci_arg (if c_async m then [] else [CPtr kt_status])
             (if c_async m then [] else [CPtr kt_status]) _ _).
    + intros a c p X Y Z. exact (proj1 (proj2 (proj2 (DIS a c p X Y Z)))).
    + destruct (c_async m); apply fn_args in E; cbn [ff_args ff_status] in E; rewrite ?app_nil_r, ?map_app in *; exact E.
  - refine (Gen (fun t => untyped (rb_c t)) untyped ci_type ci_arg (if c_async m then [] else [CData])
             (if c_async m then [] else [CData]) _ _).
    + intros a c p X Y Z. exact (proj2 (proj2 (proj2 (DIS a c p X Y Z)))).
    + rewrite <- map_map. destruct (c_async m); apply fn_args in E; cbn [ff_args ff_status] in E;
        rewrite ?app_nil_r, ?map_app in *; exact E.
Qed.

(** ** Futures *)
Lemma fut_ci : forall t, exists ft, fut_of (Some (ci_type t)) = Some ft /\ fut_of (Some (pl_type t)) = Some ft /\
  fut_c ft = Some (sw_c (ci_type t)).
Proof. induction t; cbn [ci_type pl_type]; try (eexists; repeat split; reflexivity); assumption. Qed.

Lemma future_right : forall s f m r, written_sig s = true -> macro_fn s = Some f -> macro_meta s = Some m ->
  lower_return (s_ret s) = Some r ->
  exists ft, ci_future m = Some ft /\ pl_future m = Some ft /\ fut_c ft = r.
Proof.
  intros s f m r W F M L. destruct (macro_parts s f m F M) as (rc & ps & r' & RC & PS & R & AM & RI & K & _ & _).
  rewrite L in R. injection R as <-. unfold written_sig in W. apply andb_prop in W. destruct W as [W _].
  apply andb_prop in W. destruct W as [_ WR]. pose proof (return_agrees _ _ _ WR L RI) as RR.
  unfold ci_future, pl_future.
  destruct (c_kind m) eqn:CK.
  3:{ rewrite (kind_constructor _ _ _ K RR). exists RU64. repeat split. }
  all: destruct RR as (A & _); subst r; destruct (c_ret m) as [y|]; cbn [option_map];
    [exact (fut_ci y)|exists RVoid; repeat split].
Qed.


Lemma slot_whole : forall c ps r,
  map (fun p => sw_c (ci_arg p)) (c_inputs c) = ps ->
  map (fun p => py_c (pl_type (p_ty p))) (c_inputs c) = ps ->
  map (fun p => kt_c (ci_arg p)) (c_inputs c) = map signless ps ->
  map (fun p => untyped (rb_c (ci_arg p))) (c_inputs c) = map untyped ps ->
  ret_right (c_ret c) r -> slot_right c (slot_c (c_async c) ps r).
Proof.
  intros [k a ins ret] ps r A B C D (R1 & R2 & R3 & R4 & R5). cbn [c_kind c_inputs c_ret c_async] in *.
  assert (Sw : map sw_c (map ci_arg ins) = ps) by (rewrite map_map; exact A).
  assert (Py : map py_c (map (fun p => pl_type (p_ty p)) ins) = ps) by (rewrite map_map; exact B).
  assert (Kt : map kt_c (map ci_arg ins) = map signless ps) by (rewrite map_map; exact C).
  assert (Rb : map untyped (map rb_c (map ci_arg ins)) = map untyped ps) by (rewrite !map_map; exact D).
  unfold slot_right, ci_slot, pl_slot, slot_c, ci_complete, pl_complete, ci_result, pl_result, ci_dropped, pl_dropped, future_result.
  cbn [c_kind c_inputs c_ret c_async].
  destruct a.
  - assert (X : forall t : ty, ret = Some t -> exists c, r = Some c /\ sw_c (ci_type t) = c /\ py_c (pl_type t) = c /\
              kt_c (ci_type t) = signless c /\ untyped (rb_c (ci_type t)) = untyped c).
    { intros t ->. cbn [option_map] in R1, R2, R4, R5. destruct r as [c|]; [|discriminate]. exists c.
      cbn [option_map] in R4, R5. injection R1 as R1. injection R2 as R2. injection R5 as R5. injection R4 as R4. auto. }
    destruct ret as [t|].
    + destruct (X t eq_refl) as (c & -> & X1 & X2 & X3 & X4).
      repeat split; cbn [sw_c py_c kt_c rb_c signless untyped map option_map app];
        rewrite ?map_app, ?Sw, ?Py, ?Kt, ?Rb, ?app_nil_r;
        cbn [map sw_c py_c kt_c rb_c signless untyped option_map app future_result];
        rewrite ?X1, ?X2, ?X3, ?X4; reflexivity.
    + cbn in R1. subst r.
      repeat split; cbn [sw_c py_c kt_c rb_c signless untyped map option_map app];
        rewrite ?map_app, ?Sw, ?Py, ?Kt, ?Rb, ?app_nil_r; reflexivity.
  - destruct ret as [t|]; destruct r as [c|]; try discriminate; cbn [option_map out_pointer] in *.
    + injection R1 as R1. injection R2 as R2. injection R5 as R5.
      repeat split; cbn [sw_c py_c kt_c rb_c signless untyped map option_map app];
        rewrite ?map_app, ?Sw, ?Py, ?Kt, ?Rb; cbn [map sw_c py_c kt_c rb_c signless untyped app];
        rewrite <- ?app_assoc; cbn [app]; rewrite ?R1, ?R2, ?R5; try reflexivity.
      destruct (ci_type t); reflexivity.
    + repeat split; cbn [sw_c py_c kt_c rb_c signless untyped map option_map app];
        rewrite ?map_app, ?Sw, ?Py, ?Kt, ?Rb; cbn [map sw_c py_c kt_c rb_c signless untyped app];
        rewrite <- ?app_assoc; reflexivity.
Qed.

Lemma owned_args : forall l ps cs, forallb owned l = true -> forallb (fun a => written (ra_ty a)) l = true ->
  mapM arg_meta l = Some ps -> mapM param_c l = Some cs ->
  map (fun p => sw_c (ci_arg p)) ps = cs /\ map (fun p => py_c (pl_type (p_ty p))) ps = cs /\
  map (fun p => kt_c (ci_arg p)) ps = map signless cs /\
  map (fun p => untyped (rb_c (ci_arg p))) ps = map untyped cs.
Proof.
  induction l as [|a l IH]; cbn [mapM forallb]; intros ps cs H W M C.
  - injection M as <-. injection C as <-. auto.
  - apply andb_prop in H. destruct H as [Ho Hl]. apply andb_prop in W. destruct W as [Wa Wl].
    destruct (arg_meta a) as [p|] eqn:Ma; [|discriminate]. destruct (mapM arg_meta l); [|discriminate].
    destruct (param_c a) as [c|] eqn:Ca; [|discriminate]. destruct (mapM param_c l); [|discriminate].
    injection M as <-. injection C as <-.
    destruct (IH _ _ Hl Wl eq_refl eq_refl) as (X & Y & Z & V).
    destruct a as [n r t]. destruct r; try discriminate. unfold arg_meta, param_c, named_arg in *.
    cbn [ra_ref ra_ty ra_name] in *. destruct (type_id t) as [y|] eqn:T; [|discriminate].
    cbn in Ma. injection Ma as <-. destruct (lift_right t c y Wa Ca T) as (A & B & D & E).
    unfold ci_arg, borrowed_bytes in *. cbn [map p_ty p_pass]. rewrite Bool.andb_false_r, A, B, D, E, X, Y, Z, V. auto.
Qed.


Lemma filter_all : forall {A} (f : A -> bool) l, (forall x, In x l -> f x = true) -> filter f l = l.
Proof.
  induction l as [|x l IH]; cbn; intro H; [reflexivity|].
  rewrite (H x (or_introl eq_refl)), IH; auto.
Qed.
Lemma slots_right : forall ms ts, Forall2 (fun m t => slot_right (snd m) t) ms ts ->
  map (fun m : str * csig => sw_c (ci_slot (snd m))) ms = ts /\
  map (fun m : str * csig => py_c (pl_slot (snd m))) ms = ts /\
  map (fun m : str * csig => kt_c (ci_slot (snd m))) ms = map signless ts /\
  map (fun m : str * csig => untyped (rb_c (ci_slot (snd m)))) ms = map untyped ts.
Proof.
  induction 1 as [|m t ms ts (A & B & C & D) _ (X & Y & Z & V)]; cbn [map]; [auto|].
  rewrite A, B, C, D, X, Y, Z, V. auto.
Qed.
Lemma table_whole : forall ex ms ts, (forall m, In m ms -> ex (fst m) = false) ->
  Forall2 (fun m t => slot_right (snd m) t) ms ts ->
  table_right ex ms (CStruct (CFn [cu64] None :: CFn [cu64] (Some cu64) :: ts)).
Proof.
  intros ex ms ts E H. destruct (slots_right ms ts H) as (A & B & C & D).
  assert (F : filter (fun m => negb (ex (fst m))) ms = ms)
    by (apply filter_all; intros m I; rewrite (E m I); reflexivity).
  assert (T1 : sw_c (ci_table ex ms) = CStruct (CFn [cu64] None :: CFn [cu64] (Some cu64) :: ts))
    by (unfold ci_table; rewrite F; cbn [sw_c map app option_map]; rewrite map_map, A; reflexivity).
  assert (T2 : py_c (pl_table ms) = CStruct (CFn [cu64] None :: CFn [cu64] (Some cu64) :: ts))
    by (unfold pl_table; cbn [py_c map app option_map]; rewrite map_map, B; reflexivity).
  assert (T3 : kt_c (ci_table ex ms) = signless (CStruct (CFn [cu64] None :: CFn [cu64] (Some cu64) :: ts)))
    by (unfold ci_table; rewrite F; cbn [kt_c map app option_map signless]; rewrite map_map, C; reflexivity).
  assert (T4 : untyped (rb_c (ci_table ex ms)) = untyped (CStruct (CFn [cu64] None :: CFn [cu64] (Some cu64) :: ts)))
    by (unfold ci_table; rewrite F; cbn [rb_c map app option_map untyped]; rewrite !map_map, D; reflexivity).
  unfold table_right. repeat split; auto.
  - unfold sw_fn, ci_init, macro_init. cbn [ff_args ff_ret ff_status map app option_map sw_c]. rewrite T1. reflexivity.
  - unfold py_fn, pl_init, macro_init. cbn [ff_args ff_ret ff_status map app option_map py_c]. rewrite T2. reflexivity.
  - unfold kt_fn, ci_init, macro_init. cbn [ff_args ff_ret ff_status map app option_map kt_c jvm_fn signless].
    rewrite T3. reflexivity.
Qed.

Lemma meta_parts : forall s m, macro_meta s = Some m ->
  mapM arg_meta (s_args s) = Some (c_inputs m) /\ return_id (s_ret s) = Some (c_ret m) /\ c_async m = s_async s.
Proof.
  intros s m M. unfold macro_meta in M.
  destruct (mapM arg_meta (s_args s)) as [ms|]; [|discriminate].
  destruct (return_id (s_ret s)) as [ri|]; [|discriminate].
  destruct (kind_meta (s_kind s) ri) as [k|] eqn:K; [|discriminate].
  injection M as <-. auto.
Qed.

Lemma slot_agrees : forall s m t, written_sig s = true -> forallb owned (s_args s) = true ->
  macro_slot s = Some t -> macro_meta s = Some m -> slot_right m t.
Proof.
  intros s m t W O S' M. destruct (meta_parts s m M) as (AM & RI & AS). unfold macro_slot in S'.
  destruct (mapM param_c (s_args s)) as [ps|] eqn:PS; [|discriminate].
  destruct (lift_return (s_ret s)) as [r|] eqn:R; [|discriminate].
  destruct (async_ok s && forallb lowerable (s_args s)); [|discriminate]. injection S' as <-.
  unfold written_sig in W. apply andb_prop in W. destruct W as [W _]. apply andb_prop in W. destruct W as [WA WR].
  destruct (owned_args _ _ _ O WA AM PS) as (A & B & C & D). rewrite <- AS.
  apply slot_whole; auto. apply (lift_return_agrees _ _ _ WR R RI).
Qed.

Lemma trait_agrees : forall ex ss ms t, forallb written_sig ss = true ->
  macro_trait ss = Some t -> mapM macro_meta ss = Some (map snd ms) ->
  (forall m, In m ms -> ex (fst m) = false) -> table_right ex ms t.
Proof.
  intros ex ss ms t W T M E. unfold macro_trait, macro_table in T.
  destruct (forallb (fun s => forallb owned (s_args s)) ss) eqn:O; [|discriminate].
  destruct (mapM macro_slot ss) as [ts|] eqn:TS; [|discriminate]. cbn [option_map] in T. injection T as <-.
  apply table_whole; [exact E|]. clear E. revert ms ts M TS.
  induction ss as [|s ss IH]; intros ms ts M TS; cbn [mapM forallb] in *.
  - destruct ms; [|discriminate]. injection TS as <-. constructor.
  - apply andb_prop in W. destruct W as [Ws W]. apply andb_prop in O. destruct O as [Os O].
    destruct (macro_meta s) as [m|] eqn:Ms; [|discriminate]. destruct (mapM macro_meta ss); [|discriminate].
    destruct (macro_slot s) as [t|] eqn:Ss; [|discriminate]. destruct (mapM macro_slot ss); [|discriminate].
    injection TS as <-. destruct ms as [|m' ms]; [discriminate|]. cbn [map] in M. injection M as M1 M2.
    constructor; [rewrite <- M1; apply (slot_agrees s); auto|].
    apply (IH W O); [rewrite M2; reflexivity|reflexivity].
Qed.

(** ** UDL *)
Lemma udl_right : forall t c, lift (udl_type t) = Some c -> right t c.
Proof.
  induction t; intros c L; cbn [udl_type lift] in L;
    try (injection L as <-; (apply right_buffer; reflexivity) || (repeat split; reflexivity)).
  - destruct imp; cbn in L; injection L as <-; repeat split; reflexivity.
  - assert (X : head (udl_type t) = udl_type t) by (destruct t; try reflexivity; destruct imp; reflexivity).
    rewrite X in L. assert (Y : lift (udl_type t) = Some c)
      by (destruct t; try exact L; destruct imp; exact L).
    destruct (IHt c Y) as (A & B & C & D). repeat split; assumption.
  - destruct (lift (udl_type t)); [|discriminate]. injection L as <-. apply right_buffer; reflexivity.
  - destruct (lift (udl_type t)); [|discriminate]. injection L as <-. apply right_buffer; reflexivity.
  - destruct (lift (udl_type t)); [|discriminate]. injection L as <-. apply right_buffer; reflexivity.
  - destruct (lift (udl_type t1)); [|discriminate]. destruct (lift (udl_type t2)); [|discriminate].
    injection L as <-. apply right_buffer; reflexivity.
  - destruct (IHt c L) as (A & B & C & D). repeat split; assumption.
Qed.
Lemma udl_ref : forall t, lift_ref (udl_type t) = udl_type t.
Proof. destruct t; try reflexivity. destruct imp; reflexivity. Qed.
Lemma udl_not_slice : forall t, is_u8_slice (udl_type t) = false.
Proof. destruct t; try reflexivity. destruct imp; reflexivity. Qed.
Lemma udl_lowers : forall t, lowers (udl_type t) = true.
Proof. destruct t; try reflexivity. destruct imp; reflexivity. Qed.

Lemma udl_arg_agrees : forall p c, param_c (udl_arg p) = Some c ->
  arg_right p c /\ (borrowed_bytes p = false ->
    untyped (rb_c (ci_arg p)) = untyped c /\ py_c (pl_type (p_ty p)) = c).
Proof.
  intros [n t pb d] c H. unfold udl_arg, param_c, named_arg in H. cbn [p_pass p_ty p_name] in H.
  unfold arg_right, ci_arg, pl_arg, borrowed_bytes. cbn [p_ty p_pass].
  destruct pb.
  - cbn [ra_ref ra_ty] in H. rewrite Bool.andb_false_r. destruct (udl_right t c H) as (A & B & C & D). auto.
  - destruct (is_bytes t) eqn:T; cbn [ra_ref ra_ty andb] in *.
    + cbn in H. injection H as <-. split; [repeat split; reflexivity|discriminate].
    + rewrite udl_not_slice, udl_ref in H. destruct (udl_right t c H) as (A & B & C & D). auto.
  - destruct (is_bytes t) eqn:T; cbn [ra_ref ra_ty andb] in *.
    + cbn in H. injection H as <-. split; [repeat split; reflexivity|discriminate].
    + rewrite udl_not_slice, udl_ref in H. destruct (udl_right t c H) as (A & B & C & D). auto.
Qed.
Lemma udl_args_agree : forall l cs, mapM param_c (map udl_arg l) = Some cs ->
  map (fun p => sw_c (ci_arg p)) l = cs /\ map (fun p => py_c (pl_arg p)) l = cs /\
  map (fun p => kt_c (ci_arg p)) l = map signless cs /\
  (existsb borrowed_bytes l = false ->
   map (fun p => untyped (rb_c (ci_arg p))) l = map untyped cs /\ map (fun p => py_c (pl_type (p_ty p))) l = cs).
Proof.
  induction l as [|p l IH]; cbn [map mapM]; intros cs C.
  - injection C as <-. auto.
  - destruct (param_c (udl_arg p)) as [c|] eqn:Cp; [|discriminate].
    destruct (mapM param_c (map udl_arg l)); [|discriminate]. injection C as <-.
    destruct (IH _ eq_refl) as (X & Y & Z & V). destruct (udl_arg_agrees p c Cp) as ((P & Q & R) & T).
    rewrite P, Q, R, X, Y, Z. repeat split; auto; cbn [existsb] in *; apply Bool.orb_false_elim in H; destruct H as [H1 H2];
      destruct (T H1) as [T1 T2]; destruct (V H2) as [V1 V2]; cbn [map]; congruence.
Qed.

Lemma udl_return_lower : forall r throws c, lower_return (udl_return r throws) = Some c ->
  ret_right r c.
Proof.
  intros r throws c H.
  assert (G : forall t, lower_return (udl_type t) = Some c -> ret_right (Some t) c).
  { intros t L. assert (M : lower_return (udl_type t) = option_map Some (lift (udl_type t)))
      by (destruct t; try reflexivity; destruct imp; reflexivity).
    rewrite M in L. destruct (lift (udl_type t)) eqn:E; [|discriminate]. cbn in L. injection L as <-.
    apply right_ret, udl_right, E. }
  unfold udl_return in H. destruct throws; cbn [lower_return] in H; destruct r; auto;
    injection H as <-; apply ret_nil.
Qed.
Lemma udl_return_lift : forall r throws c, lift_return (udl_return r throws) = Some c ->
  ret_right r c.
Proof.
  intros r throws c H.
  assert (G : forall t, lift_return (udl_type t) = Some c -> ret_right (Some t) c).
  { intros t L. assert (M : lift_return (udl_type t) = option_map Some (lift (udl_type t)))
      by (destruct t; try reflexivity; destruct imp; reflexivity).
    rewrite M in L. destruct (lift (udl_type t)) eqn:E; [|discriminate]. cbn in L. injection L as <-.
    apply right_ret, udl_right, E. }
  unfold udl_return in H. destruct throws; cbn [lift_return] in H; destruct r; auto;
    injection H as <-; apply ret_nil.
Qed.


Lemma udl_agrees : forall c throws f, constructs c -> macro_fn (udl_sig c throws) = Some f ->
  declared c f /\ (existsb borrowed_bytes (c_inputs c) = false -> untyped (rb_fn (ci_fn c)) = untyped f).
Proof.
  intros c throws f K F. unfold macro_fn, udl_sig in F. cbn [s_kind s_args s_ret s_async] in F.
  destruct (receiver_c _) as [rc|] eqn:RC; [|discriminate].
  destruct (mapM param_c _) as [ps|] eqn:PS; [|discriminate].
  destruct (lower_return _) as [r|] eqn:R; [|discriminate].
  destruct (async_ok _); [|discriminate]. injection F as <-.
  pose proof (udl_return_lower _ _ _ R) as RR.
  destruct (udl_args_agree _ _ PS) as (A & B & C & D).
  assert (SR : match self_of (c_kind c) with Some t => exists k, rc = [k] /\ right t k | None => rc = [] end).
  { destruct (c_kind c) as [|t|]; cbn [udl_kind receiver_c self_of] in *; try (injection RC as <-; reflexivity).
    destruct (lift (lift_ref (udl_self t))) as [k|] eqn:L; [|discriminate]. cbn in RC. injection RC as <-.
    exists k. split; [reflexivity|].
    assert (X : lift (udl_type t) = Some k).
    { destruct t; cbn [udl_self] in L; try (rewrite udl_ref in L; exact L). destruct imp; exact L. }
    apply udl_right, X. }
  destruct (whole c rc ps r SR A B C RR) as [G V].
  { intro E. destruct (K E) as (mp & n & Hr). rewrite Hr in RR. destruct RR as (RR & _). symmetry. exact RR. }
  split; [exact G|]. intro N. apply V, D, N.
Qed.

Lemma udl_slot_agrees : forall c throws t, macro_slot (udl_sig c throws) = Some t -> slot_right c t.
Proof.
  intros c throws t H. unfold macro_slot, udl_sig in H. cbn [s_args s_ret s_async] in H.
  destruct (mapM param_c _) as [ps|] eqn:PS; [|discriminate].
  destruct (lift_return _) as [r|] eqn:R; [|discriminate].
  destruct (_ && _) eqn:L; [|discriminate]. injection H as <-.
  apply andb_prop in L. destruct L as [_ L].
  assert (N : existsb borrowed_bytes (c_inputs c) = false).
  { clear PS R. induction (c_inputs c) as [|p l IH]; [reflexivity|]. cbn [map forallb existsb] in *.
    apply andb_prop in L. destruct L as [Lp L]. rewrite (IH L), Bool.orb_false_r.
    destruct p as [n t pb d]. unfold borrowed_bytes, udl_arg in *. cbn [p_ty p_pass p_name] in *.
    destruct pb, (is_bytes t); try reflexivity; discriminate. }
  destruct (udl_args_agree _ _ PS) as (A & B & C & D). destruct (D N) as [E F].
  apply slot_whole; auto. apply (udl_return_lift _ _ _ R).
Qed.

Lemma udl_callback_args : forall l cs, mapM param_c (map udl_callback_arg l) = Some cs ->
  map (fun p => sw_c (ci_type (p_ty p))) l= cs/\ map (fun p => py_c (pl_type (p_ty p))) l = cs /\
  map (fun p => kt_c (ci_type (p_ty p))) l = map signless cs /\
  map (fun p => untyped (rb_c (ci_type (p_ty p)))) l = map untyped cs.
Proof.
  induction l as [|p l IH]; cbn [map mapM]; intros cs C.
  - injection C as <-. auto.
  - destruct (param_c (udl_callback_arg p)) as [c|] eqn:Cp; [|discriminate].
    destruct (mapM param_c (map udl_callback_arg l)); [|discriminate]. injection C as <-.
    destruct (IH _ eq_refl) as (X & Y & Z & V).
    assert (L : lift (udl_type (p_ty p)) = Some c).
    { unfold param_c, named_arg, udl_callback_arg in Cp. cbn [ra_ref ra_ty] in Cp.
      destruct (p_pass p); rewrite ?udl_not_slice, ?udl_ref in Cp; exact Cp. }
    destruct (udl_right _ _ L) as (A & B & C & D). rewrite A, B, C, D, X, Y, Z, V. auto.
Qed.
Lemma not_borrowed : forall (g : fty -> cty) l, existsb borrowed_bytes l = false ->
  map (fun p => g (ci_arg p)) l = map (fun p => g (ci_type (p_ty p))) l.
Proof.
  induction l as [|p l IH]; cbn [existsb map]; intro H; [reflexivity|].
  apply Bool.orb_false_elim in H. destruct H as [H1 H2]. unfold ci_arg at 1. rewrite H1, (IH H2). reflexivity.
Qed.

Lemma udl_callback_agrees : forall c throws t, c_async c = false -> existsb borrowed_bytes (c_inputs c) = false ->
  macro_slot (udl_callback_sig c throws) = Some t -> slot_right c t.
Proof.
  intros c throws t As N H. unfold macro_slot, udl_callback_sig in H. cbn [s_args s_ret s_async] in H.
  destruct (mapM param_c _) as [ps|] eqn:PS; [|discriminate].
  destruct (lift_return _) as [r|] eqn:R; [|discriminate].
  destruct (_ && _) eqn:L; [|discriminate]. injection H as <-.
  destruct (udl_callback_args _ _ PS) as (A & B & C & D).
  change (slot_right c (slot_c false ps r)).
  replace (slot_c false ps r) with (slot_c (c_async c) ps r) by (rewrite As; reflexivity).
  apply slot_whole; try (rewrite (not_borrowed _ _ N)); auto.
  - rewrite (not_borrowed (fun t => untyped (rb_c t)) _ N). exact D.
  - apply (udl_return_lift _ _ _ R).
Qed.
(** In Python only [async] matters. *)
Lemma udl_callback_python : forall c throws t, c_async c = false ->
  macro_slot (udl_callback_sig c throws) = Some t -> py_c (pl_slot c) = t.
Proof.
  intros c throws t As H. unfold macro_slot, udl_callback_sig in H. cbn [s_args s_ret s_async] in H.
  destruct (mapM param_c _) as [ps|] eqn:PS; [|discriminate].
  destruct (lift_return _) as [r|] eqn:R; [|discriminate].
  destruct (_ && _) eqn:L; [|discriminate]. injection H as <-.
  destruct (udl_callback_args _ _ PS) as (A & B & C & D).
  destruct (udl_return_lift _ _ _ R) as (_ & R2 & _).
  unfold pl_slot, slot_c. rewrite As. cbn [py_c map app option_map].
  rewrite map_app, map_map, B, <- app_assoc. destruct (c_ret c); subst r; reflexivity.
Qed.
(** Another kind of slot altogether. *)
Lemma last_two : forall {A} (l l' : list A) a b c d, l ++ [a; b] = l' ++ [c; d] -> a = c /\ b = d.
Proof.
  intros A l l' a b c d H. change [a; b] with ([a] ++ [b]) in H. change [c; d] with ([c] ++ [d]) in H.
  rewrite !app_assoc in H. apply app_inj_tail in H. destruct H as [H ->]. apply app_inj_tail in H. destruct H as [_ ->]. auto.
Qed.
Lemma udl_callback_async : forall c throws t, c_async c = true ->
  macro_slot (udl_callback_sig c throws) = Some t ->
  sw_c (ci_slot c) <> t /\ py_c (pl_slot c) <> t /\ kt_c (ci_slot c) <> signless t.
Proof.
  intros c throws t As H. unfold macro_slot, udl_callback_sig in H. cbn [s_args s_ret s_async] in H.
  destruct (mapM param_c _) as [ps|] eqn:PS; [|discriminate].
  destruct (lift_return _) as [r|] eqn:R; [|discriminate].
  destruct (_ && _) eqn:L; [|discriminate]. injection H as <-.
  unfold ci_slot, pl_slot, slot_c. rewrite As.
  repeat split; cbn [sw_c py_c kt_c signless map app option_map]; intro E; injection E as E;
    rewrite ?map_app in E; cbn [map] in E; rewrite ?app_nil_r in E;
    match type of E with ?l ++ [?a; ?b; ?c] = ?l' ++ ?r =>
      change (l ++ [a; b; c]) with (l ++ [a] ++ [b; c]) in E; rewrite app_assoc in E;
      apply last_two in E; destruct E as [_ E]; discriminate end.
Qed.

(** ** The functions every library has *)
Lemma builtins : forall b,
  sw_fn (ci_builtin b) = macro_builtin b /\ py_fn (pl_builtin b) = macro_builtin b /\
  kt_fn (ci_builtin b) = jvm_fn (macro_builtin b) /\
  (b <> BFromBytes -> untyped (rb_fn (ci_builtin b)) = untyped (macro_builtin b)).
Proof.
  intros [| | | | |[] []]; repeat split; try reflexivity; intro H; exfalso; apply H; reflexivity.
Qed.
Lemma fixed :
  (sw_fn ci_clone = macro_clone /\ py_fn pl_clone = macro_clone /\ kt_fn ci_clone = jvm_fn macro_clone /\
   untyped (rb_fn ci_clone) = untyped macro_clone) /\
  (sw_fn ci_free = macro_free /\ py_fn pl_free = macro_free /\ kt_fn ci_free = jvm_fn macro_free /\
   untyped (rb_fn ci_free) = untyped macro_free) /\
  (sw_fn ci_checksum = macro_checksum /\ py_fn pl_checksum = macro_checksum /\
   kt_fn ci_checksum = jvm_fn macro_checksum /\ untyped (rb_fn ci_checksum) = untyped macro_checksum).
Proof. repeat split; reflexivity. Qed.

Lemma filter_shorter : forall {A} (f : A -> bool) l, (length (filter f l) <= length l)%nat.
Proof. induction l as [|x l IH]; cbn [filter length]; [lia|destruct (f x); cbn [length]; lia]. Qed.
(** An excluded method leaves a gap: the table is too short. *)
Lemma excluded_shorter : forall ex ms, (exists m, In m ms /\ ex (fst m) = true) ->
  forall fs, sw_c (ci_table ex ms) = CStruct fs -> (length fs < 2 + length ms)%nat.
Proof.
  intros ex ms (m & I & X) fs E. unfold ci_table in E. cbn [sw_c map] in E. injection E as <-.
  cbn [length]. rewrite !map_length.
  assert (length (filter (fun m => negb (ex (fst m))) ms) < length ms)%nat; [|lia].
  induction ms as [|x ms IH]; [destruct I|]. cbn [filter length].
  destruct I as [->|I].
  - rewrite X. cbn [negb]. pose proof (filter_shorter (fun m => negb (ex (fst m))) ms). lia.
  - specialize (IH I). destruct (negb (ex (fst x))); cbn [length]; lia.
Qed.
Lemma excluded_wrong : forall ex ss ms t, macro_trait ss = Some t -> mapM macro_meta ss = Some (map snd ms) ->
  (exists m, In m ms /\ ex (fst m) = true) -> sw_c (ci_table ex ms) <> t.
Proof.
  intros ex ss ms t T M X E. unfold macro_trait, macro_table in T. destruct (forallb _ ss); [|discriminate].
  destruct (mapM macro_slot ss) as [ts|] eqn:TS; [|discriminate]. cbn in T. injection T as <-.
  pose proof (excluded_shorter _ _ X _ E) as L. cbn [length] in L.
  rewrite (mapM_length _ _ _ TS), <- (mapM_length _ _ _ M), map_length in L. lia.
Qed.
(** Python's tables do not depend on what is excluded. *)
Lemma python_table : forall ss ms t, forallb written_sig ss = true ->
  macro_trait ss = Some t -> mapM macro_meta ss = Some (map snd ms) -> py_c (pl_table ms) = t.
Proof.
  intros ss ms t W T M.
  destruct (trait_agrees (fun _ => false) ss ms t W T M (fun _ _ => eq_refl)) as (_ & (P & _) & _). exact P.
Qed.
