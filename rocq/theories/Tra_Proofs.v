(** Proofs about comparing, hashing and printing. *)
From Verif Require Import Tra_Spec.

Section Lib.
Context (lib : nat -> declaration).

Lemma same_type_eq (i j : inst) : same_type i j = true <-> ty i = ty j.
Proof. apply Nat.eqb_eq. Qed.
Lemma same_type_self (i j : inst) : ty i = ty j -> same_type i j = true.
Proof. apply Nat.eqb_eq. Qed.
Lemma same_fields_eq (i j : inst) : same_fields i j = true <-> fields (inside i) = fields (inside j).
Proof. unfold same_fields, fields_eqb. destruct list_eq_dec; split; intros; congruence. Qed.
Lemma same_type_back (i j : inst) : same_type i j = same_type j i.
Proof. apply Nat.eqb_sym. Qed.

(** * Equality *)
Lemma equality l (i j : inst) :
  ty i = ty j -> used l (d_kind (lib (ty i))) -> x_eq (d_exports (lib (ty i))) = true ->
  equal lib l (Ours i) (Ours j) = Gives (r_eq (d_rust (lib (ty i))) (inside i) (inside j)).
Proof.
  intros T U X. pose proof (same_type_self _ _ T) as S.
  destruct l; cbn [equal];
    unfold py_equal, py_operator, kt_equal, sw_equal, rb_equal, py_eq, rb_eq, kt_equals, kind_of, exp in *;
    rewrite ?X, ?S;
    destruct (d_kind (lib (ty i))) as [e | [| n ns] o | ds | vs [|] o] eqn:K;
    cbn [used] in U; try contradiction; try congruence;
    unfold py_rust_eq, kt_rust_eq, rb_rust_eq, rust_eq, tr, kind_of; rewrite ?S, ?K; cbn [andb negb]; try reflexivity;
    destruct (snd _); reflexivity.
Qed.
Lemma inequality l (i j : inst) : laws lib ->
  ty i = ty j -> used l (d_kind (lib (ty i))) -> x_eq (d_exports (lib (ty i))) = true ->
  differ lib l (Ours i) (Ours j) = Gives (negb (r_eq (d_rust (lib (ty i))) (inside i) (inside j))).
Proof.
  intros L T U X. pose proof (same_type_self _ _ T) as S.
  destruct l; unfold differ; try (rewrite (equality _ _ _ T U X); reflexivity).
  unfold py_differ, py_operator, py_ne, kind_of, exp in *. rewrite X.
  rewrite <- (ne_not_eq _ (L (ty i))).
  destruct (d_kind (lib (ty i))) as [e | ns o | ds | vs [|] o] eqn:K; cbn [used] in U; try contradiction; try congruence;
    unfold py_rust_ne, rust_ne, tr; rewrite S; reflexivity.
Qed.

(** * Values of other types *)
Lemma other_type l (i : inst) v : all_compared lib l -> strange i v ->
  equal lib l (Ours i) v = (if match l with Swift => true | _ => false end then Absent else Gives false)
  /\ equal lib l v (Ours i) = equal lib l (Ours i) v.
Proof.
  intros A N. destruct (A (ty i)) as [U X].
  assert (M : forall j, v = Ours j -> same_type i j = false /\ same_type j i = false).
  { intros j ->. cbn in N. split; apply Nat.eqb_neq; congruence. }
  destruct l; cbn [equal];
    unfold py_equal, py_operator, kt_equal, sw_equal, rb_equal, py_eq, rb_eq, kt_equals, py_is, py_identical, kind_of, exp in *.
  - (* Python *)
    rewrite X.
    assert (E : match d_kind (lib (ty i)) with
                | Object _ => py_rust_eq lib i v | Struct _ _ => py_rust_eq lib i v | Flat _ => py_default_eq lib i v
                | Data _ false _ => py_rust_eq lib i v | Data _ true _ => py_default_eq lib i v end = NotImpl).
    { destruct (d_kind (lib (ty i))) as [e | ns o | ds | vs [|] o]; cbn [used] in U; try contradiction; try congruence;
        unfold py_rust_eq; destruct v as [j | n]; try reflexivity; destruct (M j eq_refl) as [-> _]; reflexivity. }
    rewrite E. destruct v as [j | n].
    + destruct (M j eq_refl) as [M1 M2]. destruct (A (ty j)) as [Uj Xj]. rewrite Xj, M1, M2.
      assert (E' : match d_kind (lib (ty j)) with
                | Object _ => py_rust_eq lib j (Ours i) | Struct _ _ => py_rust_eq lib j (Ours i)
                | Flat _ => py_default_eq lib j (Ours i)
                | Data _ false _ => py_rust_eq lib j (Ours i) | Data _ true _ => py_default_eq lib j (Ours i) end = NotImpl).
      { destruct (d_kind (lib (ty j))) as [e | ns o | ds | vs [|] o]; cbn [used] in Uj; try contradiction; try congruence;
          unfold py_rust_eq; rewrite M2; reflexivity. }
      rewrite E'. rewrite ?andb_false_r, ?andb_false_l.
      destruct (d_kind (lib (ty i))); destruct (d_kind (lib (ty j))); split; reflexivity.
    + split; reflexivity.
  - destruct v as [j | n]; [| split; reflexivity]. destruct (M j eq_refl) as [M1 M2]. destruct (A (ty j)) as [Uj Xj].
    rewrite X, Xj. unfold kt_rust_eq, kt_data_eq, kt_identical. rewrite M1, M2. cbn [andb negb].
    destruct (d_kind (lib (ty i))) as [e | [| m ns] o | ds | vs [|] o]; destruct (d_kind (lib (ty j))) as [e' | [| m' ns'] o' | ds' | vs' [|] o'];
      repeat destruct (snd _); split; reflexivity.
  - destruct v as [j | n]; [| split; reflexivity]. destruct (M j eq_refl) as [M1 M2]. destruct (A (ty j)) as [Uj Xj].
    rewrite X, Xj. unfold kt_rust_eq, kt_data_eq, kt_identical. rewrite M1, M2. cbn [andb negb].
    destruct (d_kind (lib (ty i))) as [e | [| m ns] o | ds | vs [|] o]; destruct (d_kind (lib (ty j))) as [e' | [| m' ns'] o' | ds' | vs' [|] o'];
      repeat destruct (snd _); split; reflexivity.
  - destruct v as [j | n]; [| split; reflexivity]. destruct (M j eq_refl) as [M1 M2]. rewrite M1, M2. split; reflexivity.
  - rewrite X. destruct v as [j | n].
    + destruct (M j eq_refl) as [M1 M2]. destruct (A (ty j)) as [Uj Xj]. rewrite Xj.
      unfold rb_rust_eq, kind_of. rewrite M1, M2.
      destruct (d_kind (lib (ty i))) as [e | ns o | ds | vs [|] o]; cbn [used] in U; try contradiction; try congruence;
      destruct (d_kind (lib (ty j))) as [e' | ns' o' | ds' | vs' [|] o']; cbn [used] in Uj; try contradiction; try congruence;
        split; reflexivity.
    + destruct (d_kind (lib (ty i))) as [e | ns o | ds | vs [|] o]; cbn [used] in U; try contradiction; try congruence; split; reflexivity.
Qed.

(** * Hash codes *)
Lemma kind_ty (i j : inst) : ty i = ty j -> kind_of lib i = kind_of lib j.
Proof. unfold kind_of. now intros ->. Qed.
Lemma exp_ty (i j : inst) : ty i = ty j -> exp lib i = exp lib j.
Proof. unfold exp. now intros ->. Qed.
Lemma tr_ty (i j : inst) : ty i = ty j -> tr lib i = tr lib j.
Proof. unfold tr. now intros ->. Qed.
Lemma hash_same (i j : inst) : laws lib -> ty i = ty j -> rust_eq lib i j = true -> rust_hash lib i = rust_hash lib j.
Proof.
  unfold rust_eq, rust_hash, hash_u64. intros L T E. rewrite (tr_ty _ _ T) in *.
  unfold tr in *. now rewrite (hash_eq _ (L (ty j)) _ _ E).
Qed.
Lemma variant_ty (i j : inst) : ty i = ty j -> variant (inside i) = variant (inside j) -> variant_of lib i = variant_of lib j.
Proof. unfold variant_of. intros T ->. now rewrite (kind_ty _ _ T). Qed.
Lemma once_same (i j : inst) : ty i = ty j -> variant (inside i) = variant (inside j) -> kt_once lib i = kt_once lib j.
Proof. unfold kt_once. intros T V. now rewrite (variant_ty _ _ T V), (kind_ty _ _ T). Qed.
Lemma identical_hash (i j : inst) : one_object i j -> kt_identical lib i j = true -> kt_identity lib i = kt_identity lib j.
Proof.
  unfold kt_identical, kt_identity. intros O H. apply andb_prop in H as [T H]. apply same_type_eq in T.
  destruct (kt_once lib i) eqn:K.
  - apply Nat.eqb_eq in H. rewrite <- (once_same _ _ T H), K, T, H. reflexivity.
  - apply Nat.eqb_eq in H. pose proof (O H) as I. rewrite <- (once_same i j T), K, H; [reflexivity | now rewrite I].
Qed.
Lemma kt_contract jni (i j : inst) : laws lib -> one_object i j ->
  x_eq (exp lib i) = x_hash (exp lib i) ->
  (jni = true -> match kind_of lib i with Data _ false _ => x_eq (exp lib i) = false | _ => True end) ->
  kt_equals lib jni i j = true -> kt_hash lib jni i = kt_hash lib jni j.
Proof.
  intros L O B J H. unfold kt_equals in H.
  assert (T : ty i = ty j).
  { apply same_type_eq. unfold kt_rust_eq, kt_identical, kt_data_eq in H.
    destruct (kind_of lib i) as [e | [| m ns] o | ds | vs [|] o]; repeat destruct (snd _);
      repeat destruct (x_eq _); cbn [andb] in H; destruct (negb jni);
      repeat match goal with H : _ && _ = true |- _ => apply andb_prop in H as [H ?] end; assumption. }
  unfold kt_hash. rewrite <- (kind_ty _ _ T), <- (exp_ty _ _ T), <- B in *.
  assert (R : kt_rust_eq lib i j = true -> kt_number (rust_hash lib i) = kt_number (rust_hash lib j)).
  { intros E. apply andb_prop in E as [_ E]. now rewrite (hash_same _ _ L T E). }
  assert (D : kt_data_eq i j = true -> OfFields (fields (inside i)) = OfFields (fields (inside j)) /\ variant_of lib i = variant_of lib j).
  { intros E. apply andb_prop in E as [E F]. apply andb_prop in E as [_ V]. apply same_fields_eq in F. apply Nat.eqb_eq in V.
    rewrite F. split; [reflexivity | exact (variant_ty _ _ T V)]. }
  destruct (kind_of lib i) as [e | [| m ns] o | ds | vs [|] o] eqn:K.
  - destruct (x_eq (exp lib i)); [exact (R H) | exact (identical_hash _ _ O H)].
  - now rewrite T.
  - destruct (x_eq (exp lib i)); [exact (R H) | exact (proj1 (D H))].
  - exact (identical_hash _ _ O H).
  - destruct (x_eq (exp lib i)); [exact (R H) | exact (identical_hash _ _ O H)].
  - destruct (x_eq (exp lib i)) eqn:X; cbn [andb] in *.
    + destruct jni; [specialize (J eq_refl); congruence |]. cbn [negb] in *.
      assert (E : kt_rust_eq lib i j = true) by (destruct (snd (variant_of lib i)); exact H).
      specialize (R E). destruct (snd (variant_of lib i)), (snd (variant_of lib j)); exact R.
    + destruct (snd (variant_of lib i)) eqn:V.
      * pose proof (identical_hash _ _ O H) as I. unfold kt_identical in H. apply andb_prop in H as [_ H].
        unfold kt_once in H. rewrite K, V in H. apply Nat.eqb_eq in H. rewrite <- (variant_ty _ _ T H), V. exact I.
      * destruct (D H) as [E W]. rewrite <- W, V. exact E.
Qed.

Lemma py_sets (i j : inst) v : py_eq lib i v = Answer true -> py_hash lib i <> Raises ->
  v = Ours j -> x_eq (exp lib i) = x_hash (exp lib i) ->
  ty i = ty j /\ (x_eq (exp lib i) = true /\ rust_eq lib i j = true /\ (match kind_of lib i with Flat _ | Data _ true _ => False | _ => True end)
                  \/ py_identical lib i j = true /\ match kind_of lib i with
                                                     | Object _ => x_eq (exp lib i) = false
                                                     | Flat _ | Data _ true _ => True
                                                     | _ => False
                                                     end).
Proof.
  intros E N -> B. unfold py_eq, py_hash, py_rust_eq, py_default_eq, py_is in *.
  assert (P : py_identical lib i j = true -> ty i = ty j).
  { unfold py_identical. intros H. apply same_type_eq. destruct (kind_of lib i); apply andb_prop in H as [? ?]; assumption. }
  destruct (kind_of lib i) as [e | ns o | ds | vs [|] o]; rewrite <- ?B in N; destruct (x_eq (exp lib i)); try (exfalso; apply N; reflexivity);
    repeat match type of E with context [if ?c then _ else _] => destruct c eqn:? end; try discriminate E;
    try match goal with H : same_type _ _ = true |- _ => apply same_type_eq in H end;
    try injection E as E; split; auto; tauto.
Qed.
Lemma identical_back (i j : inst) : py_identical lib i j = true -> py_identical lib j i = true.
Proof.
  unfold py_identical. intros H.
  assert (T : ty i = ty j) by (apply same_type_eq; destruct (kind_of lib i); apply andb_prop in H as [? ?]; assumption).
  rewrite <- (kind_ty _ _ T). unfold same_type, same_variant in *. rewrite (Nat.eqb_sym (ty j)), (Nat.eqb_sym (ident j)), (Nat.eqb_sym (variant (inside j))).
  exact H.
Qed.
Lemma py_contract (i j : inst) h h' : laws lib ->
  x_eq (exp lib i) = x_hash (exp lib i) -> x_eq (exp lib j) = x_hash (exp lib j) ->
  py_equal lib (Ours i) (Ours j) = Gives true -> py_hash lib i = Gives h -> py_hash lib j = Gives h' -> h = h'.
Proof.
  intros L Bi Bj E Hi Hj.
  assert (Ni : py_hash lib i <> Raises) by congruence. assert (Nj : py_hash lib j <> Raises) by congruence.
  assert (C : ty i = ty j /\ (x_eq (exp lib i) = true /\ rust_eq lib i j = true /\ (match kind_of lib i with Flat _ | Data _ true _ => False | _ => True end)
                  \/ py_identical lib i j = true /\ match kind_of lib i with
                                                     | Object _ => x_eq (exp lib i) = false
                                                     | Flat _ | Data _ true _ => True
                                                     | _ => False
                                                     end)).
  { unfold py_equal, py_operator in E. destruct (py_eq lib i (Ours j)) as [b | |] eqn:Pi; [| | discriminate E].
    - injection E as ->. eapply py_sets; eauto.
    - destruct (py_eq lib j (Ours i)) as [b | |] eqn:Pj; [| | discriminate E].
      + injection E as ->. destruct (py_sets j i _ Pj Nj eq_refl Bj) as [T H]. split; [now symmetry |].
        rewrite (kind_ty _ _ T), (exp_ty _ _ T) in H.
        destruct H as [(X & R & K) | (I & K)].
        * left. split; [exact X |]. split; [| exact K]. unfold rust_eq. rewrite (eq_back _ (L (ty i))).
          unfold rust_eq in R. rewrite (tr_ty _ _ T) in R. exact R.
        * right. split; [exact (identical_back _ _ I) | exact K].
      + injection E as E. cbn [py_is] in E. assert (T : ty i = ty j).
        { apply same_type_eq. unfold py_identical in E. destruct (kind_of lib i); apply andb_prop in E as [? ?]; assumption. }
        split; [exact T |]. right. split; [exact E |].
        unfold py_eq, py_rust_eq, py_default_eq, py_fields, py_enum_fields, py_is, py_hash in Pi, Hi.
        destruct (kind_of lib i) as [e | ns o | ds | vs [|] o]; try exact I.
        * destruct (x_eq (exp lib i)); [| reflexivity]. rewrite (same_type_self _ _ T) in Pi. discriminate Pi.
        * rewrite <- Bi in Hi. destruct (x_eq (exp lib i)); [| discriminate Hi]. rewrite (same_type_self _ _ T) in Pi. discriminate Pi.
        * rewrite <- Bi in Hi. destruct (x_eq (exp lib i)); [| discriminate Hi]. rewrite (same_type_self _ _ T) in Pi. discriminate Pi. }
  destruct C as [T C]. unfold py_hash in Hi, Hj. rewrite <- (kind_ty _ _ T), <- (exp_ty _ _ T), <- Bi in Hj. rewrite <- Bi in Hi.
  destruct C as [(X & R & K) | (I & K)].
  - rewrite X in *. pose proof (hash_same _ _ L T R) as HS.
    destruct (kind_of lib i) as [e | ns o | ds | vs [|] o]; try contradiction; injection Hi as <-; injection Hj as <-; now rewrite HS.
  - unfold py_identical in I. destruct (kind_of lib i) as [e | ns o | ds | vs [|] o]; try contradiction.
    + rewrite K in *. injection Hi as <-. injection Hj as <-. apply andb_prop in I as [I _]. apply Nat.eqb_eq in I. now rewrite I.
    + injection Hi as <-. injection Hj as <-. apply andb_prop in I as [_ I]. apply Nat.eqb_eq in I. now rewrite I, T.
    + injection Hi as <-. injection Hj as <-. apply andb_prop in I as [I _]. apply Nat.eqb_eq in I. now rewrite I.
Qed.

Lemma rb_contract (i j : inst) : laws lib -> x_eq (exp lib i) = x_hash (exp lib i) ->
  rb_eql lib i (Ours j) = Gives true -> rb_hash lib i = rb_hash lib j.
Proof.
  intros L B E. unfold rb_eql, rb_hash, rb_eq, rb_rust_eq, rb_discriminant in *.
  assert (I : (ident i =? ident j) && same_type i j = true -> ty i = ty j /\ ident i = ident j).
  { intros H. apply andb_prop in H as [H1 H2]. split; [now apply same_type_eq | now apply Nat.eqb_eq]. }
  destruct (kind_of lib i) as [e | ns o | ds | vs [|] o] eqn:K; rewrite <- ?B in *; try destruct (x_eq (exp lib i)) eqn:X;
    try (injection E as E; destruct (I E) as [T D]; rewrite <- (kind_ty _ _ T), K, <- ?(exp_ty _ _ T), <- ?B, ?X, D; reflexivity);
    try (injection E as E; repeat match goal with H : _ && _ = true |- _ => apply andb_prop in H as [H ?] end;
         apply same_type_eq in E; rewrite <- (kind_ty _ _ E), K, <- (exp_ty _ _ E), <- B, ?X;
         f_equal; apply hash_same; assumption).
  all: destruct (kind_of lib j) eqn:Kj; try discriminate E; injection E as E; apply Z.eqb_eq in E; now rewrite E.
Qed.

(** In Ruby it is enough that `Hash` comes with `Eq`. *)
Lemma rb_keys (i j : inst) h h' : laws lib -> (x_hash (exp lib i) = true -> x_eq (exp lib i) = true) ->
  key_equal lib Ruby i j = Gives true -> key_hash lib Ruby i = Gives h -> key_hash lib Ruby j = Gives h' -> h = h'.
Proof.
  intros L B E Hi Hj. cbn [key_hash] in *. injection Hi as <-. injection Hj as <-.
  destruct (x_hash (exp lib i)) eqn:X; [apply rb_contract; [exact L | now rewrite X, B | exact E] |]. clear B.
  cbn [key_equal] in E. unfold rb_eql, rb_hash, rb_eq, rb_discriminant in *.
  assert (I : (ident i =? ident j) && same_type i j = true -> ty i = ty j /\ ident i = ident j).
  { intros H. apply andb_prop in H as [H1 H2]. split; [now apply same_type_eq | now apply Nat.eqb_eq]. }
  destruct (kind_of lib i) as [e | ns o | ds | vs [|] o] eqn:K; rewrite ?X in *;
    try (injection E as E; destruct (I E) as [T D]; rewrite <- (kind_ty _ _ T), K, <- ?(exp_ty _ _ T), ?X, D; reflexivity).
  all: destruct (kind_of lib j) eqn:Kj; try discriminate E; injection E as E; apply Z.eqb_eq in E; now rewrite E.
Qed.

Lemma contract l (i j : inst) h h' : laws lib -> one_object i j ->
  both_or_neither (lib (ty i)) -> both_or_neither (lib (ty j)) -> not_over_jni l (lib (ty i)) ->
  key_equal lib l i j = Gives true -> key_hash lib l i = Gives h -> key_hash lib l j = Gives h' -> h = h'.
Proof.
  intros L O Bi Bj J E Hi Hj. destruct l; cbn [key_equal equal key_hash] in *.
  - exact (py_contract _ _ _ _ L Bi Bj E Hi Hj).
  - injection E as E. injection Hi as <-. injection Hj as <-. apply kt_contract; auto; discriminate.
  - injection E as E. injection Hi as <-. injection Hj as <-. apply kt_contract; auto.
  - unfold sw_equal in E. destruct (same_type i j) eqn:T; [| discriminate E]. apply same_type_eq in T.
    unfold sw_hash in *. rewrite <- (exp_ty _ _ T), <- (kind_ty _ _ T) in Hj. unfold both_or_neither in Bi.
    change (d_exports (lib (ty i))) with (exp lib i) in Bi. rewrite <- Bi in *.
    destruct (x_eq (exp lib i)).
    + injection E as E. injection Hi as <-. injection Hj as <-. now rewrite (hash_same _ _ L T E).
    + destruct (sw_synthesized _); [| discriminate E]. injection E as E. injection Hi as <-. injection Hj as <-.
      apply andb_prop in E as [V F]. apply Nat.eqb_eq in V. apply same_fields_eq in F. now rewrite V, F.
  - injection Hi as <-. injection Hj as <-. exact (rb_contract _ _ L Bi E).
Qed.
Lemma hashable l (i : inst) : used l (d_kind (lib (ty i))) -> x_hash (d_exports (lib (ty i))) = true ->
  exists n, key_hash lib l i = Gives (OfNumber n).
Proof.
  intros U X. destruct l; cbn [key_hash]; unfold py_hash, kt_hash, sw_hash, rb_hash, kind_of, exp in *; rewrite X;
    destruct (d_kind (lib (ty i))) as [e | [| m ns] o | ds | vs [|] o]; cbn [used] in U; try contradiction; try congruence;
    unfold py_number, kt_number; try (eexists; reflexivity); destruct (snd _); eexists; reflexivity.
Qed.

(** * Order *)
Lemma order_agrees l o (i j : inst) : laws lib -> ty i = ty j ->
  order_used l (d_kind (lib (ty i))) -> x_ord (d_exports (lib (ty i))) = true ->
  ordered lib l o i j = Gives (rust_order o (r_cmp (d_rust (lib (ty i))) (inside i) (inside j))).
Proof.
  intros L T U X.
  assert (X' : x_ord (d_exports (lib (ty j))) = true) by now rewrite <- T.
  assert (B : by_sign o (rust_cmp lib i j) = rust_order o (r_cmp (d_rust (lib (ty i))) (inside i) (inside j))).
  { unfold rust_cmp, cmp_i8, tr. now destruct (r_cmp _ _ _), o. }
  destruct l; cbn [ordered]; unfold py_rust_cmp, kt_compare, rb_cmp, sw_less, kind_of, exp in *; rewrite ?X, ?X'.
  1,2,3,5: destruct (d_kind (lib (ty i))) as [e | [| m ns] ob | ds | vs [|] ob]; cbn [order_used used] in U; try contradiction; try congruence;
    cbn [signed]; now rewrite B.
  unfold rust_cmp, cmp_i8, tr. rewrite <- T. rewrite (cmp_back _ (L (ty i)) (inside i) (inside j)).
  now destruct o, (r_cmp _ _ _).
Qed.
Lemma one_of_three l (i j : inst) : laws lib -> ty i = ty j ->
  used l (d_kind (lib (ty i))) -> x_ord (d_exports (lib (ty i))) = true -> x_eq (d_exports (lib (ty i))) = true ->
  exists lt eq gt, ordered lib l Less i j = Gives lt /\ equal lib l (Ours i) (Ours j) = Gives eq
    /\ ordered lib l Greater i j = Gives gt
    /\ ordered lib l LessEqual i j = Gives (lt || eq) /\ ordered lib l GreaterEqual i j = Gives (gt || eq)
    /\ ordered lib l Greater j i = Gives lt
    /\ (lt, eq, gt) = (match r_cmp (d_rust (lib (ty i))) (inside i) (inside j) with
                       | Lt => (true, false, false) | Eq => (false, true, false) | Gt => (false, false, true) end).
Proof.
  intros L T U X Y.
  assert (W : order_used l (d_kind (lib (ty i)))).
  { destruct l; try exact U; destruct (d_kind (lib (ty i))); try exact U; cbn in *; tauto. }
  pose proof (fun o => order_agrees l o _ _ L T W X) as OA. rewrite T in W, X.
  pose proof (order_agrees l Greater _ _ L (eq_sym T) W X) as OB.
  rewrite !OA, OB, (equality _ _ _ T U Y). rewrite <- T.
  rewrite (cmp_back _ (L (ty i)) (inside i) (inside j)).
  pose proof (cmp_eq _ (L (ty i)) (inside i) (inside j)) as CE.
  assert (Q : r_eq (d_rust (lib (ty i))) (inside i) (inside j)
              = match r_cmp (d_rust (lib (ty i))) (inside i) (inside j) with Eq => true | _ => false end).
  { destruct (r_eq _ _ _).
    - destruct CE as [_ CE]. now rewrite (CE eq_refl).
    - destruct (r_cmp _ _ _); try reflexivity. destruct CE as [CE _]. discriminate (CE eq_refl). }
  rewrite Q. destruct (r_cmp _ _ _); do 3 eexists; repeat split; reflexivity.
Qed.

(** * Text *)
Lemma text l (i : inst) : text_used l (d_kind (lib (ty i))) -> x_display (d_exports (lib (ty i))) = true ->
  text_of lib l i = Some (r_display (d_rust (lib (ty i))) (inside i)).
Proof.
  intros U X. destruct l; cbn [text_of]; unfold py_text, kt_text, sw_text, rb_text, kind_of, exp, tr in *; rewrite X;
    destruct (d_kind (lib (ty i))) as [e | [| m ns] o | ds | vs [|] o]; cbn [text_used used] in U; try contradiction; try congruence;
    try reflexivity; destruct (snd _); reflexivity.
Qed.
End Lib.

(** * What is refused *)
Lemma accepted l d : d_exports d = all_exported ->
  compiles l d = false <-> l = Kotlin /\ ((exists ds, d_kind d = Flat ds) \/ d_kind d = Object true).
Proof.
  intros X. unfold compiles. rewrite X. cbn [all_exported x_eq x_hash x_ord orb negb].
  destruct l; try (split; [discriminate | intros [? _]; discriminate]).
  destruct (d_kind d) as [[|] | ns o | ds | vs e o]; cbn; split; try discriminate; try (intros [_ [[? ?] | ?]]; discriminate); eauto.
Qed.
