(** * The machine keeps the invariant *)

From Coq Require Import Sorting.Permutation.
From Verif Require Import Base Obj_Model Obj_Spec Obj_Proofs Obj_Proofs2.

Lemma perm_root l s x : Permutation (roots s) (x :: l) ->
  Permutation (claims s) (claim_root x :: claims (set_roots l s)).
Proof.
  intros P. unfold claims. cbn [roots wraps to_f to_r set_roots].
  rewrite (Permutation_map claim_root P). reflexivity.
Qed.

Lemma perm_wrap l s x : Permutation (wraps s) (x :: l) ->
  Permutation (claims s) (claim_wrap x :: claims (set_wraps l s)).
Proof.
  intros P. unfold claims. cbn [roots wraps to_f to_r set_wraps].
  rewrite (Permutation_map claim_wrap P). cbn [map app]. symmetry. apply Permutation_middle.
Qed.

Lemma perm_f l s x : Permutation (to_f s) (x :: l) ->
  Permutation (claims s) (claim_tr x :: claims (set_to_f l s)).
Proof.
  intros P. unfold claims. cbn [roots wraps to_f to_r set_to_f].
  rewrite (Permutation_map claim_tr P). cbn [map app].
  rewrite !app_assoc. rewrite <- (Permutation_middle (map claim_root (roots s) ++ map claim_wrap (wraps s))).
  rewrite !app_assoc. reflexivity.
Qed.

Lemma perm_r l s x : Permutation (to_r s) (x :: l) ->
  Permutation (claims s) (claim_tr x :: claims (set_to_r l s)).
Proof.
  intros P. unfold claims. cbn [roots wraps to_f to_r set_to_r].
  rewrite (Permutation_map claim_tr P). cbn [map app].
  rewrite !app_assoc. rewrite <- (Permutation_middle ((map claim_root (roots s) ++ map claim_wrap (wraps s)) ++ map claim_tr (to_f s))).
  reflexivity.
Qed.

Definition rest_ok (s : st) : Prop :=
  Forall (fun x => handle_ok (snd (fst x)) (snd x) /\ exists id, snd x = Rust id) (wraps s) /\
  Forall (fun x => handle_ok (t_h x) (t_who x)) (to_f s) /\
  Forall (fun x => handle_ok (t_h x) (t_who x)) (to_r s).

Lemma Good_dropped s t a w C :
  Inv (hp s) (fm s) (next s) C -> Permutation C ((t, a, w) :: claims s) -> on_map t a = false ->
  Log (hp s) (log s) -> rest_ok s ->
  Good (dropped a s).
Proof.
  intros I P O G (R1 & R2 & R3). apply (Inv_perm _ _ _ _ _ P) in I. unfold dropped.
  pose proof (drop_ok 1 _ _ _ _ _ _ _ _ I O G ltac:(lia)) as D.
  unfold get_hm. destruct (drop 1 a (hp s, fm s, log s)) as [[H' M'] l'] eqn:E. destruct D as [D1 D2].
  constructor; auto.
Qed.

Lemma den_handle_even H M nx C t h g : Inv H M nx C -> den_handle H M t h = Some g -> on_map t h = false ->
  exists c n, lookup h H = Some (c, n) /\ Z.even h = true /\ h <> 0%Z /\ is_foreign h = false.
Proof.
  intros I D O. assert (X : exists c n, lookup h H = Some (c, n)).
  { destruct t; cbn in *.
    - unfold den in D. destruct (lookup h H) as [[c n]|] eqn:E; [|discriminate]. eauto.
    - rewrite O in D. destruct (lookup h H) as [[c n]|] eqn:E; [|discriminate]. eauto. }
  destruct X as (c & n & E). exists c, n. destruct (i_count _ _ _ _ I _ _ _ E) as (E1 & E2 & _).
  repeat split; auto. unfold is_foreign. rewrite <- Z.negb_even, E1. auto.
Qed.

Lemma can_alloc_even a H : can_alloc a H = true -> is_foreign a = false /\ lookup a H = None /\ a <> 0%Z.
Proof.
  unfold can_alloc, is_foreign. intros A. apply andb_true_iff in A as [A A3]. apply andb_true_iff in A as [A1 A2].
  rewrite <- Z.negb_even, A1. repeat split; auto; [destruct (lookup a H); [discriminate|auto] | lia].
Qed.

Lemma rust_of h w : handle_ok h w -> is_foreign h = false -> exists id, w = Rust id.
Proof. intros [_ E] F. rewrite F in E. destruct w; [eauto|discriminate]. Qed.

Lemma odd_nz h : is_foreign h = true -> h <> 0%Z.
Proof. unfold is_foreign. intros E ->. discriminate. Qed.

Ltac proj := cbn [hp fm next roots wraps fobjs to_f to_r log set_roots set_wraps set_fobjs set_to_f set_to_r ev set_hm alloc get_hm send_f send_r fst snd] in *.

Ltac logev :=
  apply Log_ev; [ | discriminate | cbn; auto | cbn; auto | cbn; auto |
    first [ intros ? Q; discriminate Q
          | intros id' Q; cbn [reaches] in Q; rewrite ?sumc_setn, ?sumc_cons;
            match goal with D : den_handle _ _ _ _ = Some _ |- _ => pose proof (den_handle_alive _ _ _ _ _ _ D Q) end; lia ] ]; auto.

Lemma forall_rest {A} (P : A -> Prop) l i x : nth_error l i = Some x -> Forall P l -> P x /\ Forall P (remove_nth i l).
Proof.
  intros E F. pose proof (Permutation_Forall (remove_nth_perm _ _ _ E) F) as X. inversion_clear X. auto.
Qed.

Lemma Good_step s o s' : Good s -> step s o = Some s' -> Good s'.
Proof.
  intros [I G W Rf Rr] H. destruct o; cbn [step] in H.
  - (* RNew *)
    destruct (can_alloc a (hp s)) eqn:A; [|discriminate]. injection H as <-.
    destruct (can_alloc_even _ _ A) as (Ae & An & Az).
    constructor; proj; auto.
    + eapply Inv_perm; [symmetry; apply (perm_root (roots s)); proj; reflexivity|].
      change (claims (set_roots _ _)) with (claims s). apply (Inv_alloc _ _ _ _ _ _ [] TObj); auto.
      * discriminate.
      * cbn. unfold den. cbn. rewrite Z.eqb_refl. auto.
    + destruct G as [G1 G2 G3 G4]. constructor.
      * intros [X|X]; [discriminate|auto].
      * constructor; cbn; auto.
      * intros i. rewrite !count_cons, sumc_cons. cbn. specialize (G3 i). lia.
      * split; auto.
  - (* RClone *)
    destruct (nth_error (roots s) i) as [[a w]|] eqn:A; [|discriminate]. injection H as <-.
    pose proof (perm_root _ _ _ (remove_nth_perm _ _ _ A)) as P.
    pose proof (Inv_perm _ _ _ _ _ P I) as J. destruct (den_root _ _ _ _ _ _ J) as (c & n & D1 & D2 & D3).
    unfold inc, get_hm. proj. rewrite D2. constructor; proj; auto.
    + eapply Inv_perm; [symmetry; apply (perm_root (roots s)); proj; reflexivity|].
      change (claims (set_roots _ _)) with (claims s). eapply Inv_inc; eauto.
    + destruct G as [G1 G2 G3 G4]. constructor; auto. intros i'. rewrite sumc_setn. auto.
  - (* RDrop *)
    destruct (nth_error (roots s) i) as [[a w]|] eqn:A; [|discriminate]. injection H as <-.
    eapply (Good_dropped _ TObj a (Some w)); eauto; [|split; auto].
    apply (perm_root _ _ (a, w)). apply remove_nth_perm. auto.
  - (* RUse *)
    destruct (nth_error (roots s) i) as [[a w]|] eqn:A; [|discriminate]. injection H as <-.
    pose proof (perm_root _ _ _ (remove_nth_perm _ _ _ A)) as P.
    pose proof (Inv_perm _ _ _ _ _ P I) as J. destruct (den_root _ _ _ _ _ _ J) as (c & n & D1 & D2 & D3).
    proj. rewrite D1. change (den_handle (hp s) (fm s) TObj a = Some w) in D1. constructor; proj; auto. logev.
  - (* RLowerObj *)
    destruct (nth_error (roots s) i) as [[a w]|] eqn:A; [|discriminate].
    destruct (lookup a (hp s)) as [[[id| |] n]|] eqn:E; try discriminate. injection H as <-.
    pose proof (perm_root _ _ _ (remove_nth_perm _ _ _ A)) as P.
    pose proof (Inv_perm _ _ _ _ _ P I) as J. destruct (den_root _ _ _ _ _ _ J) as (c & n' & D1 & D2 & D3). proj.
    destruct (den_handle_even _ _ _ _ TObj a w I D1 eq_refl) as (_ & _ & _ & _ & X1 & X2).
    assert (Hk : handle_ok a w). { unfold den in D1. rewrite E in D1. injection D1 as <-. split; auto. }
    constructor; proj; auto.
    + eapply Inv_perm; [symmetry; eapply (perm_f (to_f s)); proj; reflexivity|]. exact J.
    + logev.
  - (* RLowerTrait *)
    destruct (nth_error (roots s) i) as [[a w]|] eqn:A; [|discriminate].
    pose proof (perm_root _ _ _ (remove_nth_perm _ _ _ A)) as P.
    pose proof (Inv_perm _ _ _ _ _ P I) as J. destruct (den_root _ _ _ _ _ _ J) as (c & n & D1 & D2 & D3). proj.
    unfold claim_root in J. cbn [fst snd] in J.
    rewrite D2 in H.
    destruct c; cbn [is_box] in D3; try discriminate.
    + (* a Rust object *)
      destruct (can_alloc b (hp s)) eqn:B; [|discriminate]. injection H as <-.
      destruct (can_alloc_even _ _ B) as (Be & Bn & Bz).
      assert (Nab : a <> b) by congruence.
      assert (D : den_handle ((b, (CBox a, 1)) :: hp s) (fm s) TTrait b = Some w).
      { cbn [den_handle]. rewrite Be. cbn [lookup]. rewrite Z.eqb_refl. unfold den in *. cbn [lookup].
        destruct (Z.eqb_spec a b); [congruence|]. auto. }
      assert (Hk : handle_ok b w). { unfold den in D1. rewrite D2 in D1. injection D1 as <-. split; auto. }
      constructor; proj; auto.
      * eapply Inv_perm; [symmetry; eapply (perm_f (to_f s)); proj; reflexivity|].
        change (claims (set_to_f _ _)) with (claims (set_roots (remove_nth i (roots s)) s)).
        apply (Inv_alloc _ _ _ _ _ _ [(TObj, a, Some w)]); auto.
        -- intros x. rewrite sum_cons. cbn. lia.
        -- intros x. injection 1 as <-. eauto.
      * destruct G as [G1 G2 G3 G4]. logev. constructor; auto.
    + (* a proxy *)
      unfold den in D1. rewrite D2 in D1. proj.
      destruct (lookup h (fm s)) as [id|] eqn:L; [|discriminate]. injection D1 as <-.
      unfold fm_insert in H. proj. injection H as <-.
      assert (Of : is_foreign (next s) = true) by apply (i_next _ _ _ _ I).
      assert (Hk : handle_ok (next s) (Foreign id)). { split; auto using odd_nz. }
      pose proof (Inv_insert _ _ _ _ id J) as K.
      eapply (Good_dropped _ TObj a (Some (Foreign id))); proj; eauto.
      * eapply perm_trans; [apply perm_swap|]. constructor.
        symmetry. eapply perm_trans; [eapply (perm_f (to_f s)); proj; reflexivity|]. reflexivity.
      * logev.
      * repeat split; proj; auto.
  - (* RLift *)
    destruct (nth_error (to_r s) i) as [[t h w]|] eqn:E; [|discriminate].
    pose proof (perm_r _ _ _ (remove_nth_perm _ _ _ E)) as P.
    pose proof (Inv_perm _ _ _ _ _ P I) as J. unfold claim_tr in J. cbn [t_ty t_h t_who] in J.
    destruct (forall_rest _ _ _ _ E Rr) as [Hk Rr']. cbn [t_ty t_h t_who] in Hk.
    assert (D : den_handle (hp s) (fm s) t h = Some w).
    { pose proof (i_claims _ _ _ _ J) as K. inversion_clear K. auto. }
    pose proof D as D0.
    destruct t; cbn [den_handle] in D.
    + proj. rewrite D in H. injection H as <-. constructor; proj; auto.
      logev.
    + destruct (is_foreign h) eqn:F.
      * proj. destruct (can_alloc b (hp s)) eqn:B; [|discriminate]. injection H as <-.
        destruct (can_alloc_even _ _ B) as (Be & Bn & Bz).
        destruct (lookup h (fm s)) as [id|] eqn:L; [|discriminate]. injection D as <-.
        constructor; proj; auto.
        -- eapply Inv_perm; [symmetry; apply (perm_root (roots s)); proj; reflexivity|].
           apply (Inv_alloc _ _ _ _ _ _ [(TTrait, h, Some (Foreign id))] TObj); auto.
           ++ intros x. rewrite sum_cons. cbn. rewrite F. reflexivity.
           ++ intros x. rewrite sum_cons. cbn. rewrite F. lia.
           ++ discriminate.
           ++ cbn. unfold den. cbn. rewrite Z.eqb_refl, L. auto.
        -- destruct G as [G1 G2 G3 G4]. logev. constructor; auto.
      * proj. destruct (lookup h (hp s)) as [[[| |a] n]|] eqn:L; try discriminate. proj. rewrite D in H.
        destruct (i_box _ _ _ _ I _ _ _ L) as (c & m & L1 & L2).
        unfold inc in H. proj. rewrite L1 in H. injection H as <-.
        assert (Od : on_map TTrait h = false) by auto.
        eapply (Good_dropped _ TTrait h (Some w)); proj; eauto.
        -- eapply Inv_perm; [|eapply (Inv_inc _ _ _ _ TObj a (Some w)); [exact J| reflexivity | exact L1 | exact D]].
           eapply perm_trans; [apply perm_swap|]. reflexivity.
        -- destruct G as [G1 G2 G3 G4]. logev. constructor; auto.
           intros i'. rewrite sumc_setn. auto.
        -- repeat split; proj; auto.
  - (* FNew *) injection H as <-. constructor; proj; auto.
  - (* FLift *)
    destruct (nth_error (to_f s) i) as [[t h w]|] eqn:E; [|discriminate].
    pose proof (perm_f _ _ _ (remove_nth_perm _ _ _ E)) as P.
    pose proof (Inv_perm _ _ _ _ _ P I) as J. unfold claim_tr in J. cbn [t_ty t_h t_who] in J.
    destruct (forall_rest _ _ _ _ E Rf) as [Hk Rf']. cbn [t_ty t_h t_who] in Hk.
    assert (D : den_handle (hp s) (fm s) t h = Some w).
    { pose proof (i_claims _ _ _ _ J) as K. inversion_clear K. auto. }
    pose proof D as D0.
    destruct t.
    + proj. rewrite D in H. injection H as <-.
      destruct (den_handle_even _ _ _ _ TObj h w I D eq_refl) as (_ & _ & _ & _ & _ & X2).
      destruct (rust_of _ _ Hk X2) as (id & ->).
      constructor; proj; auto.
      * eapply Inv_perm; [symmetry; apply (perm_wrap (wraps s)); proj; reflexivity|]. exact J.
      * logev.
      * constructor; proj; eauto.
    + destruct (is_foreign h) eqn:F.
      * cbn [den_handle] in D. rewrite F in D. proj.
        destruct (lookup h (fm s)) as [id|] eqn:L; [|discriminate]. injection D as <-. injection H as <-.
        constructor; proj; auto.
        -- apply Inv_remove in J; auto.
        -- logev.
      * proj. rewrite D in H. injection H as <-. destruct (rust_of _ _ Hk F) as (id & ->).
        constructor; proj; auto.
        -- eapply Inv_perm; [symmetry; apply (perm_wrap (wraps s)); proj; reflexivity|]. exact J.
        -- logev.
        -- constructor; proj; eauto.
  - (* FLowerObj *)
    destruct (nth_error (fobjs s) i) as [id|] eqn:E; [|discriminate].
    unfold fm_insert in H. injection H as <-.
    assert (Of : is_foreign (next s) = true) by apply (i_next _ _ _ _ I).
    assert (Hk : handle_ok (next s) (Foreign id)). { split; auto using odd_nz. }
    constructor; proj; auto.
    + eapply Inv_perm; [symmetry; eapply (perm_r (to_r s)); proj; reflexivity|].
      apply Inv_insert. exact I.
    + logev.
  - (* FLowerWrap *)
    destruct (nth_error (wraps s) i) as [[[t h] w]|] eqn:E; [|discriminate]. injection H as <-.
    pose proof (perm_wrap _ _ _ (remove_nth_perm _ _ _ E)) as P.
    pose proof (Inv_perm _ _ _ _ _ P I) as J. unfold claim_wrap in J. cbn [fst snd] in J.
    destruct (forall_rest _ _ _ _ E W) as [[Hk (id & Hw)] W']. proj.
    assert (D : den_handle (hp s) (fm s) t h = Some w).
    { pose proof (i_claims _ _ _ _ J) as K. inversion_clear K. auto. }
    assert (O : on_map t h = false). { destruct Hk as [_ X]. rewrite Hw in X. destruct t; auto. }
    destruct (den_handle_even _ _ _ _ _ _ _ I D O) as (c & n & L & _).
    pose proof (Inv_inc _ _ _ _ t h (Some w) c n I O L D) as K.
    unfold inc, get_hm. rewrite L. constructor; proj; auto.
    + eapply Inv_perm; [symmetry; eapply (perm_r (to_r s)); proj; reflexivity|]. exact K.
    + destruct G as [G1 G2 G3 G4]. logev. constructor; auto.
      intros i'. rewrite sumc_setn. auto.
  - (* FFree *)
    destruct (nth_error (wraps s) i) as [[[t h] w]|] eqn:E; [|discriminate]. injection H as <-.
    destruct (forall_rest _ _ _ _ E W) as [[Hk (id & Hw)] W']. proj.
    assert (O : on_map t h = false). { destruct Hk as [_ X]. rewrite Hw in X. destruct t; auto. }
    eapply (Good_dropped _ t h (Some w)); proj; eauto.
    + apply (perm_wrap _ _ (t, h, w)). apply remove_nth_perm. auto.
    + repeat split; proj; auto.
Qed.

Lemma Good_run : forall os s s', Good s -> run s os = Some s' -> Good s'.
Proof.
  induction os as [|o os IH]; intros s s' G H; cbn [run] in H; [injection H as <-; auto|].
  destruct (step s o) eqn:E; [|discriminate]. eapply IH; [|eauto]. eapply Good_step; eauto.
Qed.

Lemma reach_good s : reachable s -> Good s.
Proof. intros (os & H). eapply Good_run; eauto using Good_init. Qed.
