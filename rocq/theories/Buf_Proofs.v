From Coq Require Import Sorting.Permutation.
From Verif Require Import Base Buf_Model Buf_Spec.

(** ** Lists *)

Lemma perm_remove {A} : forall (l : list A) i x, nth_error l i = Some x -> Permutation l (x :: remove_nth i l).
Proof.
  induction l as [|y l IH]; intros [|i] x H; cbn in *; try discriminate.
  - injection H as ->. reflexivity.
  - rewrite (IH _ _ H) at 1. apply perm_swap.
Qed.

Lemma perm_update {A} : forall (l : list A) i x y, nth_error l i = Some x -> Permutation (update_nth i y l) (y :: remove_nth i l).
Proof.
  induction l as [|z l IH]; intros [|i] x y H; cbn in *; try discriminate.
  - reflexivity.
  - rewrite (IH _ _ y H) at 1. apply perm_swap.
Qed.

Lemma map_remove {A B} (f : A -> B) : forall l i, map f (remove_nth i l) = remove_nth i (map f l).
Proof. induction l; intros [|i]; cbn; congruence. Qed.

Lemma map_update {A B} (f : A -> B) : forall l i y, map f (update_nth i y l) = update_nth i (f y) (map f l).
Proof. induction l; intros [|i] y; cbn; congruence. Qed.

Lemma map_update2 {A B} (f g : A -> B) : forall l i y, (forall c, In c (remove_nth i l) -> f c = g c) ->
  map f (update_nth i y l) = update_nth i (f y) (map g l).
Proof.
  induction l as [|x l IH]; intros [|i] y H; cbn in *; auto.
  - f_equal. apply map_ext_in. auto.
  - rewrite H by auto. f_equal. auto.
Qed.

Lemma in_remove {A} (x : A) : forall l i, In x (remove_nth i l) -> In x l.
Proof. induction l; intros [|i]; cbn; auto. intros [->|H]; eauto. Qed.

Lemma nth_map {A B} (f : A -> B) : forall l i, nth_error (map f l) i = option_map f (nth_error l i).
Proof. induction l; intros [|i]; cbn; auto. Qed.

Lemma zlen_app {A} (a b : list A) : zlen (a ++ b) = (zlen a + zlen b)%Z.
Proof. unfold zlen. rewrite app_length. lia. Qed.
Lemma zlen_nonneg {A} (a : list A) : (0 <= zlen a)%Z.
Proof. unfold zlen. lia. Qed.
Lemma zlen_repeat {A} (x : A) n : zlen (repeat x n) = Z.of_nat n.
Proof. unfold zlen. rewrite repeat_length. auto. Qed.

(** ** The heap *)

Lemma block_in p : forall l bs, block p l = Some bs -> In p (map fst l).
Proof. induction l as [|[q c] l IH]; cbn; intros bs H; [discriminate|]. destruct (Z.eqb_spec p q); [auto|]. right. eauto. Qed.

Lemma block_some p : forall l, In p (map fst l) -> exists bs, block p l = Some bs.
Proof. induction l as [|[q c] l IH]; cbn; intros H; [easy|]. destruct (Z.eqb_spec p q); [eauto|]. destruct H; [congruence|]. eauto. Qed.

Lemma block_none p : forall l, ~ In p (map fst l) -> block p l = None.
Proof. intros l H. destruct (block p l) eqn:E; auto. destruct H. eapply block_in; eauto. Qed.

Lemma block_unblock p q : forall l, p <> q -> block p (unblock q l) = block p l.
Proof.
  induction l as [|[r c] l IH]; cbn; intros H; auto. destruct (Z.eqb_spec q r).
  - subst. destruct (Z.eqb_spec p r); [congruence|auto].
  - cbn. rewrite IH by auto. reflexivity.
Qed.

Lemma block_reblock p q bs : forall l, p <> q -> block p (reblock q bs l) = block p l.
Proof.
  induction l as [|[r c] l IH]; cbn; intros H; auto. destruct (Z.eqb_spec q r).
  - subst. cbn. destruct (Z.eqb_spec p r); [congruence|auto].
  - cbn. rewrite IH by auto. reflexivity.
Qed.

Lemma block_reblock_same p bs : forall l old, block p l = Some old -> block p (reblock p bs l) = Some bs.
Proof.
  induction l as [|[r c] l IH]; cbn; intros old H; [discriminate|]. destruct (Z.eqb_spec p r).
  - cbn. subst. rewrite Z.eqb_refl. auto.
  - cbn. destruct (Z.eqb_spec p r); [congruence|]. eauto.
Qed.

Lemma map_reblock p bs : forall l, map fst (reblock p bs l) = map fst l.
Proof. induction l as [|[r c] l IH]; cbn; auto. destruct (Z.eqb p r); cbn; congruence. Qed.

Lemma perm_unblock p : forall l, In p (map fst l) -> Permutation (map fst l) (p :: map fst (unblock p l)).
Proof.
  induction l as [|[r c] l IH]; cbn; [easy|]. intros H. destruct (Z.eqb_spec p r).
  - subst. reflexivity.
  - destruct H as [H|H]; [congruence|]. cbn. rewrite (IH H) at 1. apply perm_swap.
Qed.

Section W.
Variable w : width.

Lemma w_bounds : (0 < isize_max w < usize_bound w)%Z /\ (2147483647 <= isize_max w)%Z /\ (usize_bound w <= 18446744073709551616)%Z.
Proof. destruct w; cbn; lia. Qed.

Definition wf (h : heap) (b : rbuf) : Prop :=
  (0 <= len b <= cap b)%Z /\ (cap b <= isize_max w)%Z /\
  (if Z.ltb 0 (cap b) then exists bs, block (data b) (blocks h) = Some bs /\ zlen bs = cap b
   else data b = 0%Z \/ data b = 1%Z).

Record own (h : heap) (l : list rbuf) : Prop := {
  o_ub : ub h = false;
  o_nd : NoDup (map fst (blocks h));
  o_next : (16 <= next h)%Z;
  o_rng : forall p, (16 <= p < next h)%Z <-> In p (freed h) \/ In p (map fst (blocks h));
  o_wf : forall b, In b l -> wf h b;
  o_perm : Permutation (map fst (blocks h)) (owned l);
  o_fr : NoDup (freed h);
  o_dis : forall p, In p (freed h) -> ~ In p (map fst (blocks h)) }.

Lemma owned_perm l l' : Permutation l l' -> Permutation (owned l) (owned l').
Proof.
  unfold owned. induction 1; cbn.
  - auto.
  - destruct (Z.ltb 0 (cap x)); cbn; auto.
  - destruct (Z.ltb 0 (cap x)), (Z.ltb 0 (cap y)); cbn; auto. apply perm_swap.
  - etransitivity; eauto.
Qed.

Lemma own_perm h l l' : Permutation l l' -> own h l -> own h l'.
Proof.
  intros P [A B C D E F G H]. constructor; auto.
  - intros b X. apply E. eapply Permutation_in; [symmetry|]; eauto.
  - rewrite F. apply owned_perm; auto.
Qed.

Lemma own_init : own heap0 [].
Proof. constructor; cbn; auto; try constructor; try lia; try easy. Qed.

(** Where the bytes of a held buffer are. *)
Lemma view_len h l b : own h l -> In b l -> zlen (abytes (view_of h b)) = len b.
Proof.
  intros O X. destruct (o_wf _ _ O _ X) as (A & B & C). unfold view_of. cbn [abytes].
  destruct (Z.ltb_spec 0 (cap b)).
  - destruct C as (bs & -> & L). unfold zlen in *. rewrite firstn_length. lia.
  - rewrite block_none; [cbn; lia|]. intros Y. assert (16 <= data b < next h)%Z by (apply (o_rng _ _ O); auto). lia.
Qed.

Lemma own_new h l bs extra : own h l -> (zlen bs + Z.of_nat extra <= isize_max w)%Z ->
  let (h', v) := new_vec h bs extra in
  own h' (from_vec v :: l) /\ view_of h' (from_vec v) = AB bs (zlen bs + Z.of_nat extra) /\
  (forall b, In b l -> view_of h' b = view_of h b) /\ data (from_vec v) <> 0%Z.
Proof.
  intros O Le. unfold new_vec. destruct (bs ++ repeat filler extra) as [|x all] eqn:E.
  - apply app_eq_nil in E as [-> E]. destruct extra; [|discriminate]. cbn. destruct O as [A B C D Ew F G H].
    assert (N1 : block 1 (blocks h) = None).
    { apply block_none. intros X. assert (16 <= 1 < next h)%Z by (apply D; auto). lia. }
    split; [|split; [|split]].
    + constructor; auto. intros b [<-|X]; auto. unfold wf, from_vec, empty_vec; cbn [cap len data vcap vlen vptr Z.ltb Z.compare].
      pose proof w_bounds. split; [lia|]. split; [lia|]. auto.
    + unfold view_of, from_vec, empty_vec; cbn [data len cap vptr vlen vcap]. rewrite N1. reflexivity.
    + auto.
    + cbn. lia.
  - cbn [alloc]. set (p := next h). assert (Len : zlen (x :: all) = (zlen bs + Z.of_nat extra)%Z).
    { rewrite <- E, zlen_app, zlen_repeat. auto. }
    assert (Np : ~ In p (map fst (blocks h))).
    { intros X. assert (16 <= p < next h)%Z by (apply (o_rng _ _ O); auto). unfold p in *. lia. }
    assert (Nf : ~ In p (freed h)).
    { intros X. assert (16 <= p < next h)%Z by (apply (o_rng _ _ O); auto). unfold p in *. lia. }
    pose proof O as [A B C D Ew F G H].
    unfold from_vec; cbn [vcap vlen vptr]. split; [|split; [|split]].
    + constructor; cbn [blocks next freed ub map fst]; auto.
      * constructor; auto.
      * lia.
      * intros q. cbn [In]. specialize (D q). unfold p in *. split.
        -- intros Hq. destruct (Z.eq_dec q (next h)); [auto|]. destruct D as [D _]. destruct D; auto. lia.
        -- intros [X|[X|X]]; [|lia|]; (assert (16 <= q < next h)%Z by (apply D; auto); lia).
      * intros b [<-|X].
        -- unfold wf; cbn [cap len data blocks]. rewrite Len. pose proof (zlen_nonneg bs). split; [lia|]. split; [lia|].
           assert (0 < zlen bs + Z.of_nat extra)%Z by (rewrite <- Len; unfold zlen; cbn [length]; lia).
           rewrite (proj2 (Z.ltb_lt _ _)) by lia. exists (x :: all). cbn. rewrite Z.eqb_refl. auto.
        -- destruct (Ew _ X) as (W1 & W2 & W3). split; [auto|]. split; [auto|]. destruct (Z.ltb 0 (cap b)); auto.
           destruct W3 as (c & W3 & W4). exists c. split; auto. cbn. destruct (Z.eqb_spec (data b) p) as [Eq|]; auto.
           rewrite Eq in W3. apply block_in in W3. contradiction.
      * unfold owned in *. cbn [filter cap]. rewrite (proj2 (Z.ltb_lt _ _)) by (unfold zlen; cbn [length]; lia). cbn [map data]. rewrite <- F. auto.
      * intros q X. cbn [In]. intros [Y|Y]; [congruence|]. eapply H; eauto.
    + unfold view_of; cbn [data blocks len cap block]. rewrite Z.eqb_refl. rewrite Len, <- E. f_equal.
      unfold zlen. rewrite Nat2Z.id, firstn_app, Nat.sub_diag, firstn_all. cbn. rewrite app_nil_r. auto.
    + intros b X. unfold view_of; cbn [blocks block]. destruct (Z.eqb_spec (data b) p) as [Eq|]; auto.
      destruct (Ew _ X) as (W1 & W2 & W3). destruct (Z.ltb 0 (cap b)).
      * destruct W3 as (c & W3 & W4). rewrite Eq in W3. apply block_in in W3. contradiction.
      * unfold p in *. lia.
    + cbn [data]. unfold p. lia.
Qed.

(** Distinct nonempty buffers point to distinct blocks. *)
Lemma own_head h b l : own h (b :: l) -> (0 < cap b)%Z ->
  In (data b) (map fst (blocks h)) /\ forall c, In c l -> (0 < cap c)%Z -> data c <> data b.
Proof.
  intros [A B C D Ew F G H] P. unfold owned in F. cbn [filter] in F. rewrite (proj2 (Z.ltb_lt _ _)) in F by auto. cbn [map] in F.
  split.
  - eapply Permutation_in; [symmetry; exact F|]. left; auto.
  - intros c X Pc Eq. assert (N : NoDup (data b :: map data (filter (fun b => Z.ltb 0 (cap b)) l))) by (eapply Permutation_NoDup; eauto).
    inversion N; subst. apply H2. rewrite <- Eq. apply in_map. apply filter_In. split; auto. apply Z.ltb_lt; auto.
Qed.

Lemma small_data h b l : own h l -> In b l -> cap b = 0%Z -> (data b < 16)%Z.
Proof. intros O X Z0. destruct (o_wf _ _ O _ X) as (W1 & W2 & W3). rewrite Z0 in W3. cbn in W3. lia. Qed.

Lemma view_other h h' b l c : own h (b :: l) -> (0 < cap b)%Z -> In c l ->
  (forall p, p <> data b -> block p (blocks h') = block p (blocks h)) -> view_of h' c = view_of h c.
Proof.
  intros O P X Hb. destruct (own_head _ _ _ O P) as [In0 Df]. unfold view_of. rewrite Hb; auto.
  destruct (o_wf _ _ O c (or_intror X)) as (W1 & W2 & W3). destruct (Z.ltb_spec 0 (cap c)).
  - apply Df; auto.
  - assert (16 <= data b < next h)%Z by (apply (o_rng _ _ O); auto). lia.
Qed.

Lemma own_destroy h b l : own h (b :: l) ->
  exists v, destroy_into_vec w b = Done v /\ vec_bytes h v = abytes (view_of h b) /\ vcap v = cap b /\ vlen v = len b /\
    own (drop_vec h v) l /\ (forall c, In c l -> view_of (drop_vec h v) c = view_of h c).
Proof.
  intros O. destruct (o_wf _ _ O b (or_introl eq_refl)) as (W1 & W2 & W3). pose proof w_bounds as Wb.
  destruct (Z.ltb_spec 0 (cap b)) as [P|P].
  - destruct W3 as (bs & W3 & W4). destruct (own_head _ _ _ O P) as [In0 Df].
    assert (Rng : (16 <= data b < next h)%Z) by (apply (o_rng _ _ O); auto).
    exists (V (data b) (cap b) (len b)). unfold destroy_into_vec.
    rewrite (proj2 (Z.eqb_neq (data b) 0)) by lia. rewrite (proj2 (Z.leb_gt _ (cap b))) by lia. rewrite (proj2 (Z.leb_gt _ (len b))) by lia.
    rewrite (proj2 (Z.leb_le (len b) _)) by lia. cbn [negb].
    split; [auto|]. split; [reflexivity|]. split; [auto|]. split; [auto|].
    unfold drop_vec, dealloc; cbn [vcap vptr]. rewrite (proj2 (Z.eqb_neq (cap b) 0)) by lia. rewrite W3, W4, Z.eqb_refl.
    pose proof O as [A B C D Ew F G H]. split.
    + pose proof (perm_unblock _ _ In0) as Pu.
      assert (Nd : NoDup (data b :: map fst (unblock (data b) (blocks h)))) by (eapply Permutation_NoDup; eauto).
      inversion Nd as [|? ? N1 N2]; subst.
      constructor; cbn [blocks next freed ub]; auto.
      * intros q. rewrite (D q). cbn [In]. split.
        -- intros [X|X]; auto. apply (Permutation_in _ Pu) in X as [X|X]; auto.
        -- intros [[X|X]|X]; auto; right; apply (Permutation_in _ (Permutation_sym Pu)); cbn; auto.
      * intros c X. destruct (Ew c (or_intror X)) as (X1 & X2 & X3). split; [auto|]. split; [auto|].
        destruct (Z.ltb_spec 0 (cap c)); auto. destruct X3 as (cs & X3 & X4). exists cs. split; auto.
        cbn [blocks]. rewrite block_unblock; auto.
      * unfold owned in F. cbn [filter] in F. rewrite (proj2 (Z.ltb_lt _ _)) in F by auto. cbn [map] in F.
        apply Permutation_cons_inv with (a := data b). rewrite <- Pu. exact F.
      * constructor; auto. intros X. eapply H; eauto.
      * intros q [<-|X]; auto. intros Y. apply (H q X). apply (Permutation_in _ (Permutation_sym Pu)). cbn; auto.
    + intros c X. eapply view_other; eauto. intros p Np. cbn [blocks]. apply block_unblock; auto.
  - assert (Z0 : cap b = 0%Z) by lia. assert (L0 : len b = 0%Z) by lia.
    assert (Nb : block (data b) (blocks h) = None).
    { apply block_none. intros X. assert (16 <= data b < next h)%Z by (apply (o_rng _ _ O); auto). lia. }
    assert (N1 : block 1 (blocks h) = None).
    { apply block_none. intros X. assert (16 <= 1 < next h)%Z by (apply (o_rng _ _ O); auto). lia. }
    assert (Ol : own h l).
    { destruct O as [A B C D Ew F G H]. constructor; auto.
      - intros c X. apply Ew. right; auto.
      - unfold owned in F. cbn [filter] in F. rewrite (proj2 (Z.ltb_ge _ _)) in F by auto. exact F. }
    unfold destroy_into_vec. destruct W3 as [W3|W3]; rewrite W3.
    + rewrite Z0, L0. cbn. exists empty_vec. repeat (split; [auto; fail|]). unfold vec_bytes, view_of; cbn. rewrite N1, <- W3, Nb. auto.
    + rewrite Z0, L0. cbn [Z.eqb]. rewrite !(proj2 (Z.leb_gt _ 0)) by lia. cbn. exists (V 1 0 0).
      repeat (split; [auto; fail|]). unfold vec_bytes, view_of; cbn. rewrite N1, W3, N1. auto.
Qed.


(** ** One operation *)

Definition short (p : payload) : Prop := exists k, p = Plain k /\ (zlen (message p) <= 2147483647)%Z.

Ltac short := eexists; split; [reflexivity|]; vm_compute; discriminate.

Lemma own_snoc h l b : own h (b :: l) -> own h (l ++ [b]).
Proof. apply own_perm. apply Permutation_cons_append. Qed.

Lemma map_view h h' l : (forall b, In b l -> view_of h' b = view_of h b) -> map (view_of h') l = map (view_of h) l.
Proof. intros H. apply map_ext_in. auto. Qed.

Lemma own_push h l bs extra h' v : own h l -> new_vec h bs extra = (h', v) -> (zlen bs + Z.of_nat extra <= isize_max w)%Z ->
  own h' (l ++ [from_vec v]) /\ map (view_of h') (l ++ [from_vec v]) = map (view_of h) l ++ [AB bs (zlen bs + Z.of_nat extra)].
Proof.
  intros O E Le. pose proof (own_new h l bs extra O Le) as H. rewrite E in H. destruct H as (H1 & H2 & H3 & _).
  split; [apply own_snoc; auto|]. rewrite map_app. cbn [map]. rewrite H2, (map_view h h') by auto. auto.
Qed.

Lemma own_lower h l m h' b : own h l -> lower_string h m = (h', b) -> (zlen m <= isize_max w)%Z ->
  own h' (l ++ [b]) /\ map (view_of h') (l ++ [b]) = map (view_of h) l ++ [AB m (zlen m)].
Proof.
  intros O E Le. unfold lower_string in E. destruct (new_vec h m 0) as [h1 v] eqn:Ev. injection E as <- <-.
  pose proof (own_push h l m 0 h1 v O Ev ltac:(lia)) as H. rewrite Z.add_0_r in H. auto.
Qed.

(** A refused call. *)
Lemma finish_refused {A} (dflt : A) h h1 p cb l_ok l_bad ok o :
  cb h = (h1, CPanic p) -> short p -> own h1 l_bad ->
  exists s', finish (rust_call dflt fresh cb h) l_ok l_bad ok o = Some (s', RRefused UnexpectedError) /\
    own (hp s') (held s') /\ view s' = map (view_of h1) l_bad ++ [AB (message p) (zlen (message p))].
Proof.
  intros E (k & -> & Sh) O. unfold rust_call, rust_call_with_out_status. rewrite E.
  destruct (lower_string h1 (message (Plain k))) as [h2 b] eqn:El. cbn [finish code error_buf Z.eqb UnexpectedError Success].
  destruct (own_lower _ _ _ _ _ O El) as [O2 V2]; [pose proof w_bounds; lia|].
  eexists. split; [reflexivity|]. cbn [hp held]. split; auto.
Qed.

Ltac refuse h1 O0 :=
  match goal with
  | |- context [finish (rust_call ?d _ ?cb ?h) ?a ?b ?ok ?o] =>
      let X := fresh "X" in
      assert (X : exists p, cb h = (h1, CPanic p) /\ short p);
      [eexists; split
      |destruct X as (p' & X & Sh'); destruct (finish_refused d h h1 p' cb a b ok o X Sh' O0) as (s' & F & Os & Vs);
       rewrite F; split; [auto|]; eexists; rewrite Vs]
  end.

Lemma finish_ok {A} (dflt : A) h h1 a cb l_ok l_bad ok o :
  cb h = (h1, CVal a) -> finish (rust_call dflt fresh cb h) l_ok l_bad ok o = Some (mkw h1 (l_ok ++ ok a), o a).
Proof. intros E. unfold rust_call, rust_call_with_out_status. rewrite E. reflexivity. Qed.

Lemma malformed_panics b : malformed w b = true -> exists p, destroy_into_vec w b = Panics p /\ short p.
Proof.
  unfold malformed, destroy_into_vec. destruct (Z.eqb (data b) 0).
  - destruct (Z.eqb (cap b) 0), (Z.eqb (len b) 0); cbn; try discriminate; intros _; eexists; (split; [reflexivity|short]).
  - destruct (Z.leb (usize_bound w) (cap b)); [intros _; eexists; split; [reflexivity|short]|].
    destruct (Z.leb (usize_bound w) (len b)); [intros _; eexists; split; [reflexivity|short]|].
    cbn. destruct (Z.ltb_spec (cap b) (len b)); [|discriminate]. rewrite (proj2 (Z.leb_gt _ _)) by auto. cbn.
    intros _; eexists; split; [reflexivity|short].
Qed.

Definition simulates (s : world) (x : op) : Prop :=
  match step w s x with
  | None => forall e, spec w e (view s) x = None
  | Some (s', r) => own (hp s') (held s') /\ exists e, spec w e (view s) x = Some (view s', r)
  end.

Lemma view_nth s i : nth_error (view s) i = option_map (view_of (hp s)) (nth_error (held s) i).
Proof. apply nth_map. Qed.

Lemma view_nat_len h l b : own h l -> In b l -> Z.of_nat (length (abytes (view_of h b))) = len b.
Proof. intros. apply (view_len h l b); auto. Qed.

Lemma sim_bogus s k b : own (hp s) (held s) -> simulates s (Bogus k b).
Proof.
  intros O. unfold simulates; cbn [step spec].
  destruct (malformed w b) eqn:M; cbn [andb negb]; [|auto].
  destruct (is_u64 (cap b)); cbn [andb negb]; [|auto]. destruct (is_u64 (len b)); cbn [andb negb]; [|auto].
  destruct (malformed_panics _ M) as (p & E & Sh).
  destruct k as [|n|].
  - destruct (finish_refused tt (hp s) (hp s) p (fun h => match destroy_into_vec w b with Panics p => (h, CPanic p) | Done v => (drop_vec h v, CVal tt) end)
                (held s) (held s) (fun _ => []) (fun _ => RUnit)) as (s' & F & O' & V'); auto; [rewrite E; auto|].
    unfold rustbuffer_free. rewrite F. split; auto. eexists. rewrite V'. reflexivity.
  - destruct (is_u64 n) eqn:U; cbn [negb]; [|auto].
    unfold rustbuffer_reserve.
    destruct (Z.leb (usize_bound w) n) eqn:L.
    + refuse (hp s) O; [| |reflexivity].
      * cbn beta. rewrite ?L. reflexivity.
      * short.
    + refuse (hp s) O; [| |reflexivity].
      * cbn beta. rewrite ?L, E. reflexivity.
      * auto.
  - refuse (hp s) O; [| |reflexivity].
    * unfold lift_with, to_cres. rewrite E. reflexivity.
    * auto.
Qed.

Lemma u64_range z : is_u64 z = true -> (0 <= z < 18446744073709551616)%Z.
Proof. unfold is_u64. intros H. apply andb_prop in H as [H1 H2]. apply Z.leb_le in H1. apply Z.ltb_lt in H2. lia. Qed.

Lemma sim_alloc s n : own (hp s) (held s) -> (n < usize_bound w)%Z -> simulates s (Alloc n).
Proof.
  intros O Fit. unfold simulates; cbn [step spec]. destruct (is_u64 n) eqn:U; cbn [negb]; [|auto]. apply u64_range in U.
  unfold rustbuffer_alloc. assert (Hm : (n mod usize_bound w = n)%Z) by (apply Z.mod_small; lia).
  destruct (Z.leb_spec n (isize_max w)) as [L|L].
  - destruct (new_vec (hp s) (repeat x00 (Z.to_nat n)) 0) as [h1 v] eqn:Ev.
    erewrite finish_ok; [|cbn beta; unfold new_with_size; rewrite Hm, (proj2 (Z.ltb_ge _ _)) by lia; rewrite Ev; reflexivity].
    destruct (own_push _ _ _ _ _ _ O Ev) as [O' V']; [rewrite zlen_repeat; lia|].
    cbn [hp held]. split; auto. exists []. unfold view in *; cbn [hp held]. rewrite V', zlen_repeat. change (Z.of_nat 0) with 0%Z. rewrite Z2Nat.id, Z.add_0_r by lia. reflexivity.
  - refuse (hp s) O; [| |reflexivity].
    * cbn beta. unfold new_with_size. rewrite Hm, (proj2 (Z.ltb_lt _ _)) by lia. reflexivity.
    * short.
Qed.

Lemma read_mem_len m : forall n p, length (read_mem m p n) = n.
Proof. induction n; intros; cbn; auto. Qed.

Lemma i32_range z : is_i32 z = true -> (-2147483648 <= z <= 2147483647)%Z.
Proof. unfold is_i32. intros H. apply andb_prop in H as [H1 H2]. apply Z.leb_le in H1. apply Z.leb_le in H2. lia. Qed.

Lemma sim_from_bytes s m d : own (hp s) (held s) -> simulates s (FromBytes m d).
Proof.
  intros O. unfold simulates; cbn [step spec]. destruct (is_i32 (flen d)) eqn:U; cbn [negb]; [|auto]. apply i32_range in U.
  unfold rustbuffer_from_bytes.
  assert (S1 : short (assertion ("null " ++ "ForeignBytes" ++ " had non-zero length"))) by short.
  assert (S2 : short (expect "bytes length negative or overflowed")) by short.
  destruct (Z.ltb (flen d) 0 || (Z.eqb (fdata d) 0 && negb (Z.eqb (flen d) 0))) eqn:B.
  - assert (E : exists p, as_slice "ForeignBytes" m d = Panics p /\ short p).
    { unfold as_slice. destruct (Z.eqb_spec (fdata d) 0).
      - destruct (Z.eqb_spec (flen d) 0) as [F|F]; [rewrite F in B; discriminate|]. cbn. eauto.
      - cbn [andb] in B. rewrite orb_false_r in B. rewrite B. eauto. }
    destruct E as (p & E & Sh).
    refuse (hp s) O; [| |reflexivity].
    * cbn beta. rewrite E. reflexivity.
    * auto.
  - apply orb_false_elim in B as [B1 B2]. apply Z.ltb_ge in B1.
    assert (E : as_slice "ForeignBytes" m d = Done (read_mem m (fdata d) (Z.to_nat (flen d)))).
    { unfold as_slice. destruct (Z.eqb_spec (fdata d) 0).
      - cbn [andb] in B2. rewrite B2. destruct (Z.eqb_spec (flen d) 0) as [F|F]; [rewrite F; reflexivity|discriminate].
      - rewrite (proj2 (Z.ltb_ge _ _)) by auto. auto. }
    destruct (new_vec (hp s) (read_mem m (fdata d) (Z.to_nat (flen d))) 0) as [h1 v] eqn:Ev.
    erewrite finish_ok; [|cbn beta; rewrite E, Ev; reflexivity].
    assert (Zl : zlen (read_mem m (fdata d) (Z.to_nat (flen d))) = flen d) by (unfold zlen; rewrite read_mem_len; lia).
    destruct (own_push _ _ _ _ _ _ O Ev) as [O' V']; [pose proof w_bounds; lia|].
    cbn [hp held]. split; auto. exists []. unfold view in *; cbn [hp held]. rewrite V', Zl. change (Z.of_nat 0) with 0%Z. rewrite Z.add_0_r. reflexivity.
Qed.

Lemma sim_lower s bs extra : own (hp s) (held s) -> simulates s (Lower bs extra).
Proof.
  intros O. unfold simulates; cbn [step spec].
  destruct (Z.ltb_spec (isize_max w) (zlen bs + Z.of_nat extra)).
  - intros _. rewrite (proj2 (Z.leb_gt _ _)) by auto. auto.
  - destruct (new_vec (hp s) bs extra) as [h1 v] eqn:Ev. destruct (own_push _ _ _ _ _ _ O Ev) as [O' V']; auto.
    cbn [hp held]. split; auto. exists []. rewrite (proj2 (Z.leb_le _ _)) by auto. unfold view in *; cbn [hp held]. rewrite V'. reflexivity.
Qed.

(** Taking one buffer out. *)
Lemma own_take s i b : own (hp s) (held s) -> nth_error (held s) i = Some b -> own (hp s) (b :: remove_nth i (held s)).
Proof. intros O E. eapply own_perm; [apply perm_remove|]; eauto. Qed.

Lemma sim_lift s i : own (hp s) (held s) -> simulates s (Lift i).
Proof.
  intros O. unfold simulates; cbn [step spec]. rewrite view_nth. destruct (nth_error (held s) i) as [b|] eqn:E; cbn [option_map]; [|auto].
  destruct (own_destroy _ _ _ (own_take _ _ _ O E)) as (v & D & B & _ & _ & O' & V').
  erewrite finish_ok; [|cbn beta; unfold lift_with, to_cres; rewrite D; reflexivity].
  cbn [hp held]. rewrite app_nil_r. split; auto. exists []. unfold view; cbn [hp held]. rewrite B, (map_view (hp s) (drop_vec (hp s) v)) by auto. rewrite map_remove. reflexivity.
Qed.

Lemma sim_free s i : own (hp s) (held s) -> simulates s (Free i).
Proof.
  intros O. unfold simulates; cbn [step spec]. rewrite view_nth. destruct (nth_error (held s) i) as [b|] eqn:E; cbn [option_map]; [|auto].
  destruct (own_destroy _ _ _ (own_take _ _ _ O E)) as (v & D & B & _ & _ & O' & V').
  unfold rustbuffer_free. erewrite finish_ok; [|cbn beta; rewrite D; reflexivity].
  cbn [hp held]. rewrite app_nil_r. split; auto. exists []. unfold view; cbn [hp held]. rewrite (map_view (hp s) (drop_vec (hp s) v)) by auto. rewrite map_remove. reflexivity.
Qed.

Lemma sim_reserve s i n extra : own (hp s) (held s) -> simulates s (Reserve i n extra).
Proof.
  intros O. unfold simulates; cbn [step spec]. destruct (is_u64 n) eqn:U; cbn [negb]; [|auto]. apply u64_range in U.
  rewrite view_nth. destruct (nth_error (held s) i) as [b|] eqn:E; cbn [option_map]; [|auto].
  pose proof (own_take _ _ _ O E) as Ot.
  destruct (own_destroy _ _ _ Ot) as (v & D & B & C & L & O' & V').
  rewrite (view_len _ _ b Ot) by (left; auto). change (acap (view_of (hp s) b)) with (cap b).
  destruct (o_wf _ _ Ot b (or_introl eq_refl)) as (W1 & W2 & _). pose proof w_bounds as Wb.
  unfold rustbuffer_reserve.
  destruct (Z.leb_spec (usize_bound w) n) as [Un|Un].
  - rewrite (proj2 (Z.leb_gt n (isize_max w - len b))) by lia. cbn [andb].
    refuse (hp s) O; [| |reflexivity].
    + reflexivity.
    + short.
  - destruct (Z.ltb_spec (isize_max w) (len b + n)) as [Ov|Ov].
    + rewrite (proj2 (Z.leb_gt n (isize_max w - len b))) by lia. cbn [andb].
      refuse (drop_vec (hp s) v) O'.
      * cbn beta. rewrite D. unfold reserve. rewrite C, L.
        rewrite (proj2 (Z.leb_gt n (cap b - len b))) by lia. rewrite (proj2 (Z.ltb_lt _ _)) by lia. reflexivity.
      * short.
      * rewrite (map_view (hp s) (drop_vec (hp s) v)) by auto. rewrite map_remove. reflexivity.
    + rewrite (proj2 (Z.leb_le n (isize_max w - len b))) by lia. cbn [andb].
      destruct (Z.ltb_spec (isize_max w) (len b + n + Z.of_nat extra)) as [Oe|Oe]; [auto|].
      destruct (Z.leb_spec (len b + n) (cap b)) as [Fi|Fi].
      * (* enough room *)
        assert (Eb : from_vec v = b /\ vptr v = data b \/ cap b = 0%Z /\ v = empty_vec /\ len b = 0%Z).
        { unfold destroy_into_vec in D. destruct (Z.eqb_spec (data b) 0) as [Z0|Z0].
          - destruct (Z.eqb_spec (cap b) 0) as [C0|C0]; cbn in D; [|discriminate]. destruct (Z.eqb (len b) 0); cbn in D; [|discriminate].
            injection D as <-. right. split; auto.
          - destruct (Z.leb (usize_bound w) (cap b)); [discriminate|]. destruct (Z.leb (usize_bound w) (len b)); [discriminate|].
            destruct (negb (Z.leb (len b) (cap b))); [discriminate|]. injection D as <-. left. destruct b. auto. }
        erewrite finish_ok; [|cbn beta; rewrite D; unfold reserve; rewrite C, L;
          rewrite (proj2 (Z.leb_le n (cap b - len b))) by lia; reflexivity].
        cbn [hp held]. destruct Eb as [[-> _]|(C0 & -> & L0)].
        -- split; [apply own_snoc; auto|]. exists []. unfold view; cbn [hp held]. rewrite map_app, map_remove. reflexivity.
        -- assert (Ol : own (hp s) (remove_nth i (held s))) by exact O'.
           destruct (own_push (hp s) _ [] 0 (hp s) empty_vec Ol eq_refl) as [O2 V2]; [cbn; lia|].
           split; auto. exists []. unfold view; cbn [hp held]. rewrite V2, map_remove.
           assert (abytes (view_of (hp s) b) = []).
           { pose proof (view_len _ _ b Ot (or_introl eq_refl)) as Zl. rewrite L0 in Zl. destruct (abytes (view_of (hp s) b)); auto. unfold zlen in Zl; cbn in Zl; lia. }
           rewrite H, C0. reflexivity.
      * (* a new block *)
        destruct (new_vec (hp s) (abytes (view_of (hp s) b)) (Z.to_nat n + extra)) as [h1 v1] eqn:Ev.
        assert (Zl : zlen (abytes (view_of (hp s) b)) = len b) by (apply (view_len _ _ b Ot); left; auto).
        pose proof (own_new (hp s) _ (abytes (view_of (hp s) b)) (Z.to_nat n + extra) Ot ltac:(lia)) as Hn. rewrite Ev in Hn.
        destruct Hn as (H1 & H2 & H3 & _).
        assert (Op : own h1 (b :: from_vec v1 :: remove_nth i (held s))).
        { eapply own_perm; [|exact H1]. apply perm_swap. }
        destruct (own_destroy _ _ _ Op) as (v' & D' & _ & _ & _ & O2 & V2). rewrite D in D'. injection D' as <-.
        erewrite finish_ok; [|cbn beta; rewrite D; unfold reserve; rewrite C, L;
          rewrite (proj2 (Z.leb_gt n (cap b - len b))) by lia; rewrite (proj2 (Z.ltb_ge _ _)) by lia; rewrite B, Ev; reflexivity].
        cbn [hp held]. split; [apply own_snoc; auto|]. exists []. unfold view; cbn [hp held]. rewrite map_app. cbn [map].
        rewrite V2 by (left; auto). rewrite H2, Zl.
        rewrite (map_view (hp s) (drop_vec h1 v)).
        -- rewrite map_remove. replace (len b + Z.of_nat (Z.to_nat n + extra))%Z with (len b + n + Z.of_nat extra)%Z by lia. reflexivity.
        -- intros c X. rewrite V2 by (right; auto). apply H3. right; auto.
Qed.

Lemma sim_truncate s i n : own (hp s) (held s) -> simulates s (Truncate i n).
Proof.
  intros O. unfold simulates; cbn [step spec]. rewrite view_nth. destruct (nth_error (held s) i) as [b|] eqn:E; cbn [option_map]; [|auto].
  pose proof (own_take _ _ _ O E) as Ot. pose proof (view_nat_len _ _ b Ot (or_introl eq_refl)) as Zl.
  destruct (o_wf _ _ Ot b (or_introl eq_refl)) as (W1 & W2 & W3).
  destruct (Z.ltb_spec (len b) (Z.of_nat n)).
  - rewrite (proj2 (Nat.leb_gt _ _)) by lia. auto.
  - rewrite (proj2 (Nat.leb_le _ _)) by lia. cbn [hp held]. split.
    + eapply own_perm; [symmetry; eapply perm_update; eauto|]. destruct Ot as [A B C D Ew F G H'].
      constructor; auto; [|rewrite F; unfold owned; cbn; destruct (Z.ltb 0 (cap b)); reflexivity].
      intros c [<-|X]; [|apply Ew; right; auto]. unfold wf; cbn [cap len data]. split; [lia|]. split; [lia|]. exact W3.
    + exists []. unfold view; cbn [hp held]. rewrite map_update. do 3 f_equal. unfold view_of; cbn [data len cap abytes acap].
      unfold view_of in Zl; cbn [abytes] in Zl. destruct (block (data b) (blocks (hp s))); [|rewrite firstn_nil; auto].
      rewrite firstn_firstn. f_equal. f_equal. lia.
Qed.

Lemma splice_len off (bs old : bytes) : off + length bs <= length old -> length (splice off bs old) = length old.
Proof. intros H. unfold splice. rewrite !app_length, firstn_length, skipn_length. lia. Qed.

Lemma firstn_splice n off (bs old : bytes) : off <= n -> n <= length old -> off + length bs <= length old ->
  firstn (Nat.max n (off + length bs)) (splice off bs old) = splice off bs (firstn n old).
Proof.
  intros H1 H2 H3. unfold splice. rewrite firstn_firstn, Nat.min_l by auto.
  rewrite firstn_app, firstn_firstn, firstn_length, Nat.min_r by lia. f_equal.
  rewrite (Nat.min_l off (length old)) by lia.
  rewrite firstn_app, firstn_all2 by lia. f_equal.
  rewrite skipn_firstn_comm. f_equal. lia.
Qed.

Lemma sim_write s i off bs : own (hp s) (held s) -> simulates s (Write i off bs).
Proof.
  intros O. unfold simulates; cbn [step spec]. rewrite view_nth. destruct (nth_error (held s) i) as [b|] eqn:E; cbn [option_map]; [|auto].
  pose proof (own_take _ _ _ O E) as Ot. pose proof (view_nat_len _ _ b Ot (or_introl eq_refl)) as Zl.
  destruct (o_wf _ _ Ot b (or_introl eq_refl)) as (W1 & W2 & W3). change (acap (view_of (hp s) b)) with (cap b).
  destruct (Z.ltb_spec (len b) (Z.of_nat off)).
  { rewrite (proj2 (Nat.leb_gt _ _)) by lia. auto. }
  rewrite (proj2 (Nat.leb_le _ _)) by lia. cbn [andb].
  destruct (Z.ltb_spec (cap b) (Z.of_nat off + zlen bs)).
  { rewrite (proj2 (Z.leb_gt _ _)) by auto. auto. }
  rewrite (proj2 (Z.leb_le _ _)) by auto.
  destruct (Z.ltb_spec 0 (cap b)) as [P|P].
  - destruct W3 as (old & Eo & Lo). rewrite Eo. cbn [hp held].
    assert (Vo : forall c, In c (remove_nth i (held s)) ->
              view_of (mkh (reblock (data b) (splice off bs old) (blocks (hp s))) (next (hp s)) (freed (hp s)) (ub (hp s))) c = view_of (hp s) c).
    { intros c X. eapply view_other; eauto. intros p Np. cbn [blocks]. apply block_reblock; auto. }
    split.
    + eapply own_perm; [symmetry; eapply perm_update; eauto|]. destruct (own_head _ _ _ Ot P) as [In0 Df]. destruct Ot as [A B C D Ew F G H'].
      constructor; cbn [blocks next freed ub]; rewrite ?map_reblock; auto; [|rewrite F; unfold owned; cbn; destruct (Z.ltb 0 (cap b)); reflexivity].
      * intros c [<-|X].
        -- unfold wf; cbn [cap len data]. split; [unfold zlen in *; lia|]. split; [lia|]. rewrite (proj2 (Z.ltb_lt _ _)) by auto.
           exists (splice off bs old). cbn [blocks]. rewrite (block_reblock_same _ _ _ _ Eo). split; auto.
           unfold zlen in *. rewrite splice_len; lia.
        -- destruct (Ew c (or_intror X)) as (X1 & X2 & X3). split; [auto|]. split; [auto|]. destruct (Z.ltb_spec 0 (cap c)); auto.
           destruct X3 as (cs & X3 & X4). exists cs. cbn [blocks]. rewrite block_reblock; auto.
    + exists []. unfold view; cbn [hp held]. rewrite (map_update2 _ (view_of (hp s))) by auto. do 3 f_equal.
      unfold view_of at 2; cbn [data len cap abytes acap blocks]. rewrite (block_reblock_same _ _ _ _ Eo).
      unfold view_of; cbn [abytes]. rewrite Eo. f_equal. rewrite <- firstn_splice; [f_equal; unfold zlen; lia|lia|unfold zlen in *; lia|unfold zlen in *; lia].
  - assert (C0 : cap b = 0%Z) by lia. assert (Bs : bs = [] /\ off = 0). { unfold zlen in *. destruct bs; cbn in *; split; auto; lia. }
    destruct Bs as [-> ->].
    assert (Nb : block (data b) (blocks (hp s)) = None).
    { apply block_none. intros X. assert (16 <= data b < next (hp s))%Z by (apply (o_rng _ _ Ot); auto). lia. }
    rewrite Nb. cbn [hp held]. replace (mkh (blocks (hp s)) (next (hp s)) (freed (hp s)) (ub (hp s))) with (hp s) by (destruct (hp s); auto).
    replace (RB (cap b) (Z.max (len b) (Z.of_nat 0 + zlen [])) (data b)) with b by (destruct b; cbn in *; f_equal; lia).
    assert (Up : forall A (l : list A) i x, nth_error l i = Some x -> update_nth i x l = l).
    { intros A. induction l; intros [|j] x Hx; cbn in *; try discriminate; [congruence|]. f_equal. auto. }
    rewrite Up by auto. split; auto. exists []. f_equal. f_equal. unfold view. cbn [hp held].
    rewrite Up; auto. rewrite nth_map, E. cbn. reflexivity.
Qed.

Lemma sim_empty s : own (hp s) (held s) -> simulates s Empty.
Proof.
  intros O. unfold simulates; cbn [step spec hp held].
  assert (N0 : block 0 (blocks (hp s)) = None).
  { apply block_none. intros X. assert (16 <= 0 < next (hp s))%Z by (apply (o_rng _ _ O); auto). lia. }
  split.
  - apply own_snoc. destruct O as [A B C D Ew F G H']. constructor; auto.
    intros c [<-|X]; auto. unfold wf, null_buf; cbn. pose proof w_bounds. split; [lia|]. split; [lia|auto].
  - exists []. unfold view; cbn [hp held]. rewrite map_app. cbn [map]. unfold view_of at 3, null_buf; cbn [data len cap]. rewrite N0. reflexivity.
Qed.

Lemma step_sim s x : own (hp s) (held s) -> fits w x -> simulates s x.
Proof.
  intros O Fi. destruct x; [apply sim_empty|apply sim_alloc|apply sim_from_bytes|apply sim_lower|apply sim_write|apply sim_truncate
                           |apply sim_reserve|apply sim_lift|apply sim_free|apply sim_bogus]; auto.
Qed.

Lemma run_own : forall xs s s' rs, own (hp s) (held s) -> Forall (fits w) xs -> run w s xs = Some (s', rs) ->
  own (hp s') (held s') /\ exists es, spec_run w es (view s) xs = Some (view s', rs).
Proof.
  induction xs as [|x xs IH]; intros s s' rs O F H; cbn [run] in H.
  - injection H as <- <-. split; auto. exists []. reflexivity.
  - inversion F as [|? ? Fx Fxs]; subst. pose proof (step_sim s x O Fx) as S. unfold simulates in S.
    destruct (step w s x) as [[s1 r]|]; [|discriminate]. destruct S as [O1 (e & S)].
    destruct (run w s1 xs) as [[s2 rs']|] eqn:R; [|discriminate]. injection H as <- <-.
    destruct (IH _ _ _ O1 Fxs R) as [O2 (es & S2)]. split; auto. exists (e :: es). cbn [spec_run]. rewrite S, S2. reflexivity.
Qed.

Lemma run_total : forall xs s, own (hp s) (held s) -> Forall (fits w) xs -> run w s xs = None ->
  exists pre x post es l rs, xs = pre ++ x :: post /\ spec_run w es (view s) pre = Some (l, rs) /\ forall e, spec w e l x = None.
Proof.
  induction xs as [|x xs IH]; intros s O F H; cbn [run] in H; [discriminate|].
  inversion F as [|? ? Fx Fxs]; subst. pose proof (step_sim s x O Fx) as S. unfold simulates in S.
  destruct (step w s x) as [[s1 r]|].
  - destruct S as [O1 (e & S)]. destruct (run w s1 xs) as [[s2 rs']|] eqn:R; [discriminate|].
    destruct (IH _ O1 Fxs R) as (pre & y & post & es & l & rs & -> & S2 & N). exists (x :: pre), y, post, (e :: es), l, (r :: rs).
    split; [reflexivity|]. split; auto. cbn [spec_run]. rewrite S, S2. reflexivity.
  - exists [], x, xs, [], (view s), []. repeat split; auto.
Qed.

Lemma own_sound s : own (hp s) (held s) -> sound s.
Proof.
  intros O. pose proof O as [A B C D Ew F G H]. split; [auto|]. split; [auto|]. split; [auto|]. split; [auto|]. split; [|split].
  - intros p X Y. apply (H p X). apply (Permutation_in _ (Permutation_sym F)). auto.
  - intros p. rewrite D. split; (intros [X|X]; [auto|right]); [apply (Permutation_in _ F)|apply (Permutation_in _ (Permutation_sym F))]; auto.
  - intros b X. split; [apply (Ew b X)|]. apply (view_len _ _ b O X).
Qed.

End W.

Lemma refines w xs s rs : Forall (fits w) xs -> run w world0 xs = Some (s, rs) ->
  exists es, spec_run w es [] xs = Some (view s, rs).
Proof. intros F H. apply (run_own w xs world0 s rs (own_init w) F H). Qed.

Lemma runs_on w xs : Forall (fits w) xs -> run w world0 xs = None ->
  exists pre x post es l rs, xs = pre ++ x :: post /\ spec_run w es [] pre = Some (l, rs) /\ forall e, spec w e l x = None.
Proof. intros F H. apply (run_total w xs world0 (own_init w) F H). Qed.

Lemma always_sound w xs s rs : Forall (fits w) xs -> run w world0 xs = Some (s, rs) -> sound s.
Proof. intros F H. apply (own_sound w). apply (run_own w xs world0 s rs (own_init w) F H). Qed.
