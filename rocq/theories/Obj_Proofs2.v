(** * Dropping references, and the invariant of the whole machine *)

From Coq Require Import Sorting.Permutation.
From Verif Require Import Base Obj_Model Obj_Spec Obj_Proofs.

(** One reference less, others remain. *)
Lemma Inv_dec H M nx C t a w c n :
  Inv H M nx ((t, a, w) :: C) -> on_map t a = false -> lookup a H = Some (c, S (S n)) ->
  Inv (setn a (S n) H) M nx C.
Proof.
  intros [I1 I2 I3 I4 I5 I6 I7 I8 I9] O E.
  assert (D : forall b, sum (needs b) ((t, a, w) :: C) = b1 (Z.eqb a b) + sum (needs b) C).
  { intros b. rewrite sum_cons. cbn [needs]. rewrite O. reflexivity. }
  assert (S1 : forall b c' n', lookup b (setn a (S n) H) = Some (c', n') -> exists m, lookup b H = Some (c', m) /\
     n' + b1 (Z.eqb a b) = m).
  { intros b c' n' L. destruct (Z.eqb_spec a b) as [Eq|N].
    - subst b. rewrite (setn_same _ _ _ _ _ E) in L. injection L as <- <-. exists (S (S n)). cbn. split; auto. lia.
    - rewrite setn_other in L by auto. exists n'. cbn. split; auto. }
  assert (S2 : forall b, lookup b (setn a (S n) H) = None -> lookup b H = None).
  { intros b L. destruct (Z.eqb_spec a b) as [Eq|N].
    - subst b. rewrite (setn_same _ _ _ _ _ E) in L. discriminate.
    - rewrite setn_other in L by auto. auto. }
  assert (S3 : forall b c' m, lookup b H = Some (c', m) -> exists m', lookup b (setn a (S n) H) = Some (c', m')).
  { intros b c' m L. destruct (Z.eqb_spec a b) as [Eq|N].
    - subst b. rewrite E in L. injection L as <- <-. rewrite (setn_same _ _ _ _ _ E). eauto.
    - rewrite setn_other by auto. eauto. }
  assert (I3' : forall b, lookup b (setn a (S n) H) = None -> sum (needs b) C + sumc (boxes b) (setn a (S n) H) = 0).
  { intros b L. rewrite sumc_setn. apply S2 in L. specialize (I3 _ L). rewrite D in I3. lia. }
  assert (I4' : forall b d m, lookup b (setn a (S n) H) = Some (CBox d, m) -> exists c' m', lookup d (setn a (S n) H) = Some (c', m') /\ is_box c' = false).
  { intros b d m L. destruct (S1 _ _ _ L) as (m0 & L0 & _). destruct (I4 _ _ _ L0) as (c' & m' & L1 & L2).
    destruct (S3 _ _ _ L1) as (m2 & L3). eauto. }
  assert (I5' : forall h, sumc (proxies h) (setn a (S n) H) + sum (tokens h) C = match lookup h M with Some _ => 1 | None => 0 end).
  { intros h. rewrite sumc_setn. specialize (I5 h). rewrite sum_cons in I5. cbn [tokens] in I5. rewrite O in I5. exact I5. }
  inversion_clear I9 as [|? ? _ I9']. constructor; auto.
  - rewrite setn_keys. auto.
  - intros b c' m L. rewrite sumc_setn. destruct (S1 _ _ _ L) as (m0 & L0 & Em).
    destruct (I2 _ _ _ L0) as (? & ? & ? & Q). rewrite D in Q. repeat split; auto; [|lia].
    destruct (Z.eqb_spec a b) as [Eq|N]; cbn in *; [|lia].
    subst b. rewrite E in L0. injection L0 as <- <-. lia.
  - apply Forall_forall. intros [[t' h'] w'] Hin. eapply (stable H M); eauto.
    + split; [|congruence]. intros x c1 n1 c2 n2 L1 L2. destruct (S1 _ _ _ L2) as (m & L3 & _). congruence.
    + eapply Forall_forall in I9'; eauto.
Qed.

(** The claims of a content which becomes free. *)
Definition released (c : content) : list claim :=
  match c with CObj _ => [] | CProxy h => [(TTrait, h, None)] | CBox b => [(TObj, b, None)] end.

Lemma Inv_release H M nx C t a w c :
  Inv H M nx ((t, a, w) :: C) -> on_map t a = false -> lookup a H = Some (c, 1) ->
  Inv (del a H) M nx (released c ++ C).
Proof.
  intros [I1 I2 I3 I4 I5 I6 I7 I8 I9] O E.
  assert (D : forall b, sum (needs b) ((t, a, w) :: C) = b1 (Z.eqb a b) + sum (needs b) C).
  { intros b. rewrite sum_cons. cbn [needs]. rewrite O. reflexivity. }
  assert (Z0 : sum (needs a) C = 0 /\ sumc (boxes a) H = 0).
  { destruct (I2 _ _ _ E) as (_ & _ & _ & Q). rewrite D, b1_eqb_refl in Q. lia. }
  assert (Od : forall h, c = CProxy h -> is_foreign h = true).
  { intros h ->. pose proof (sumc_pos (proxies h) _ _ _ _ E) as Q. cbn in Q. rewrite b1_eqb_refl in Q.
    specialize (I5 h). destruct (lookup h M) eqn:L; [|lia]. apply I7. apply (in_map fst _ (h, z)). apply lookup_in; auto. }
  assert (Rn : forall b, sum (needs b) (released c) = boxes b c).
  { intros b. destruct c; cbn [released boxes]; auto; rewrite sum_cons; cbn [needs on_map sum fold_right].
    - rewrite (Od h) by auto. reflexivity.
    - lia. }
  assert (Rt : forall h, sum (tokens h) (released c) = proxies h c).
  { intros h'. destruct c; cbn [released proxies]; auto; rewrite sum_cons; cbn [tokens on_map sum fold_right].
    rewrite (Od h) by auto. lia. }
  assert (S1 : forall b, a <> b -> lookup b (del a H) = lookup b H) by (intros; apply del_other; auto).
  assert (S2 : lookup a (del a H) = None) by (apply del_same; auto).
  assert (Sb : forall f, sumc f H = f c + sumc f (del a H)) by (intros; eapply sumc_del; eauto).
  assert (Nb : forall b, sum (needs b) (released c ++ C) + sumc (boxes b) (del a H) = sum (needs b) C + sumc (boxes b) H).
  { intros b. rewrite sum_app, Rn, (Sb (boxes b)). lia. }
  assert (I3' : forall b, lookup b (del a H) = None -> sum (needs b) (released c ++ C) + sumc (boxes b) (del a H) = 0).
  { intros b L. rewrite Nb. destruct (Z.eqb_spec a b) as [Eq|N]; [subst b; lia|].
    rewrite S1 in L by auto. specialize (I3 _ L). rewrite D in I3. lia. }
  assert (I4' : forall x b m, lookup x (del a H) = Some (CBox b, m) -> exists c' m', lookup b (del a H) = Some (c', m') /\ is_box c' = false).
  { intros x b m L. destruct (Z.eqb_spec a x) as [Eq|N]; [subst x; congruence|]. rewrite S1 in L by auto.
    assert (b <> a).
    { intros ->. pose proof (sumc_pos (boxes a) _ _ _ _ L) as Q. cbn in Q. rewrite b1_eqb_refl in Q. lia. }
    destruct (I4 _ _ _ L) as (c' & m' & L1 & L2). exists c', m'. rewrite S1 by auto. auto. }
  assert (I5' : forall h, sumc (proxies h) (del a H) + sum (tokens h) (released c ++ C) = match lookup h M with Some _ => 1 | None => 0 end).
  { intros h. specialize (I5 h). rewrite sum_cons in I5. cbn [tokens] in I5. rewrite O in I5.
    rewrite sum_app, Rt. rewrite (Sb (proxies h)) in I5. lia. }
  inversion_clear I9 as [|? ? _ I9']. constructor; auto.
  - apply del_nodup. auto.
  - intros b c' m L. rewrite Nb. destruct (Z.eqb_spec a b) as [Eq|N]; [subst b; congruence|]. rewrite S1 in L by auto.
    destruct (I2 _ _ _ L) as (? & ? & ? & Q). rewrite D in Q. destruct (Z.eqb_spec a b); [congruence|]. cbn in Q.
    repeat split; auto; lia.
  - assert (AG : agree H (del a H) M M).
    { split; [|congruence]. intros x c1 n1 c2 n2 L1 L2. destruct (Z.eqb_spec a x) as [Eq|N]; [subst x; congruence|].
      rewrite S1 in L2 by auto. congruence. }
    apply Forall_forall. intros [[t' h'] w'] Hin. eapply (stable H M); eauto.
    apply in_app_iff in Hin as [Hin|Hin].
    + destruct c; cbn in Hin; try contradiction; destruct Hin as [Hin|[]]; injection Hin as <- <- <-; cbn.
      * rewrite (Od h) by auto. pose proof (sumc_pos (proxies h) _ _ _ _ E) as Q. cbn in Q. rewrite b1_eqb_refl in Q.
        specialize (I5 h). destruct (lookup h M) eqn:L; [|lia]. cbn. eauto.
      * destruct (I4 _ _ _ E) as (c' & m' & L1 & L2). unfold den. rewrite L1. destruct c'; try discriminate; eauto.
        pose proof (sumc_pos (proxies h) _ _ _ _ L1) as Q. cbn in Q. rewrite b1_eqb_refl in Q.
        specialize (I5 h). destruct (lookup h M) eqn:L; [|lia]. cbn. eauto.
    + eapply Forall_forall in I9'; eauto.
Qed.

(** ** Bookkeeping of events *)

Definition is_bad (e : event) : bool := match e with EBad => true | _ => false end.
Definition is_new (id : Z) (e : event) : bool := match e with ENew i => Z.eqb i id | _ => false end.
Definition is_drop (id : Z) (e : event) : bool := match e with EDrop i => Z.eqb i id | _ => false end.
(** A handle is never zero, and its lowest bit tells who made it. *)
Definition handle_ok (h : Z) (w : who) : Prop :=
  h <> 0%Z /\ is_foreign h = match w with Foreign _ => true | Rust _ => false end.
Definition got_ok (e : event) : Prop :=
  match e with EGot w g _ => w = g | EUse w g => w = g | ESent w h => handle_ok h w | _ => True end.

Record Log (H : heap) (l : list event) : Prop := {
  g_bad : ~ In EBad l;
  g_got : Forall got_ok l;
  g_drop : forall id, sumc (objects id) H + count (is_drop id) l = count (is_new id) l;
  g_live : only_live l }.

Lemma count_cons p e l : count p (e :: l) = b1 (p e) + count p l.
Proof. unfold count. cbn [filter]. destruct (p e); reflexivity. Qed.

Lemma drop_ok : forall fuel H M nx C l t a w,
  Inv H M nx ((t, a, w) :: C) -> on_map t a = false -> Log H l ->
  (fuel = 0 -> t = TObj) ->
  let '(H', M', l') := drop fuel a (H, M, l) in Inv H' M' nx C /\ Log H' l'.
Proof.
  induction fuel as [|fuel IH]; intros H M nx C l t a w I O G Hf.
  - (* a single Arc of an object or a proxy *)
    rewrite (Hf eq_refl) in *. clear Hf.
    assert (X : exists c n, lookup a H = Some (c, S n) /\ is_box c = false).
    { pose proof (i_claims _ _ _ _ I) as J. inversion_clear J as [|? ? K _]. cbn in K.
      assert (exists g, den H M a = Some g) as (g & K'). { destruct w; eauto. }
      unfold den in K'. destruct (lookup a H) as [[c n]|] eqn:E; [|discriminate].
      destruct (i_count _ _ _ _ I _ _ _ E) as (_ & _ & Hn & _). destruct n; [lia|]. exists c, n. destruct c; auto. discriminate. }
    destruct X as (c & n & E & B). cbn [drop]. rewrite E. destruct n as [|n].
    + pose proof (Inv_release _ _ _ _ _ _ _ _ I O E) as R.
      destruct c; cbn [is_box] in B; try discriminate; cbn [released app] in R.
      * split; [auto|]. destruct G as [G1 G2 G3 G4]. constructor.
        -- intros [X|X]; [discriminate|auto].
        -- constructor; cbn; auto.
        -- intros i. rewrite !count_cons. specialize (G3 i). rewrite (sumc_del (objects i) _ _ _ _ E) in G3. cbn in *. lia.
        -- split; [|auto]. specialize (G3 id). rewrite (sumc_del (objects id) _ _ _ _ E) in G3. cbn in G3. rewrite b1_eqb_refl in G3.
           unfold is_drop, is_new in G3. lia.
      * assert (F : is_foreign h = true).
        { pose proof (i_map _ _ _ _ I h) as Q. pose proof (sumc_pos (proxies h) _ _ _ _ E) as Q2. cbn in Q2. rewrite b1_eqb_refl in Q2.
          destruct (lookup h M) eqn:L; [|lia]. apply (i_fresh _ _ _ _ I). apply (in_map fst _ (h, z)). apply lookup_in; auto. }
        destruct (lookup h M) eqn:L.
        -- split; [eapply Inv_remove; eauto|]. destruct G as [G1 G2 G3 G4]. constructor; auto.
           intros i. specialize (G3 i). rewrite (sumc_del (objects i) _ _ _ _ E) in G3. cbn in *. lia.
        -- pose proof (i_map _ _ _ _ I h) as Q. pose proof (sumc_pos (proxies h) _ _ _ _ E) as Q2. cbn in Q2. rewrite b1_eqb_refl in Q2. rewrite L in Q. lia.
    + split; [eapply Inv_dec; eauto|]. destruct G as [G1 G2 G3 G4]. constructor; auto. intros i. rewrite sumc_setn. auto.
  - assert (X : exists c n, lookup a H = Some (c, S n)).
    { destruct (lookup a H) as [[c n]|] eqn:E.
      - destruct (i_count _ _ _ _ I _ _ _ E) as (_ & _ & Hn & _). destruct n; [lia|]. eauto.
      - apply (i_none _ _ _ _ I) in E. rewrite sum_cons in E. cbn [needs] in E. rewrite O, b1_eqb_refl in E. lia. }
    destruct X as (c & n & E). cbn [drop]. rewrite E. destruct n as [|n].
    + pose proof (Inv_release _ _ _ _ _ _ _ _ I O E) as R.
      assert (G0 : forall i, sumc (objects i) (del a H) + objects i c + count (is_drop i) l = count (is_new i) l).
      { intros i. rewrite <- (g_drop _ _ G i). rewrite (sumc_del (objects i) _ _ _ _ E). lia. }
      destruct c; cbn [released app] in R.
      * split; [auto|]. destruct G as [G1 G2 G3 G4]. constructor.
        -- intros [X|X]; [discriminate|auto].
        -- constructor; cbn; auto.
        -- intros i. rewrite !count_cons. specialize (G0 i). cbn in *. lia.
        -- split; [|auto]. specialize (G0 id). cbn in G0. rewrite b1_eqb_refl in G0. unfold is_drop, is_new in G0. lia.
      * pose proof (i_map _ _ _ _ I h) as Q. pose proof (sumc_pos (proxies h) _ _ _ _ E) as Q2. cbn in Q2. rewrite b1_eqb_refl in Q2.
        destruct (lookup h M) eqn:L; [|lia].
        assert (F : is_foreign h = true). { apply (i_fresh _ _ _ _ I). apply (in_map fst _ (h, z)). apply lookup_in; auto. }
        split; [eapply Inv_remove; eauto|]. destruct G as [G1 G2 G3 G4]. constructor; auto.
        intros i. specialize (G0 i). cbn in *. lia.
      * apply (IH _ _ _ _ _ _ _ _ R); auto. destruct G as [G1 G2 G3 G4]. constructor; auto.
        intros i. specialize (G0 i). cbn in *. lia.
    + split; [eapply Inv_dec; eauto|]. destruct G as [G1 G2 G3 G4]. constructor; auto. intros i. rewrite sumc_setn. auto.
Qed.

(** ** The machine *)

Definition claim_root (x : addr * who) : claim := (TObj, fst x, Some (snd x)).
Definition claim_wrap (x : hty * Z * who) : claim := (fst (fst x), snd (fst x), Some (snd x)).
Definition claim_tr (x : transit) : claim := (t_ty x, t_h x, Some (t_who x)).

Definition claims (s : st) : list claim :=
  map claim_root (roots s) ++ map claim_wrap (wraps s) ++ map claim_tr (to_f s) ++ map claim_tr (to_r s).

Record Good (s : st) : Prop := {
  G_inv : Inv (hp s) (fm s) (next s) (claims s);
  G_log : Log (hp s) (log s);
  G_wrap : Forall (fun x => handle_ok (snd (fst x)) (snd x) /\ exists id, snd x = Rust id) (wraps s);
  G_f : Forall (fun x => handle_ok (t_h x) (t_who x)) (to_f s);
  G_r : Forall (fun x => handle_ok (t_h x) (t_who x)) (to_r s) }.

Lemma Good_init : Good init.
Proof. constructor; [apply Inv_init | constructor; cbn; auto | ..]; constructor. Qed.

Lemma remove_nth_perm {A} : forall (l : list A) i x, nth_error l i = Some x -> Permutation l (x :: remove_nth i l).
Proof.
  induction l as [|y l IH]; intros [|i] x H; cbn in *; try discriminate.
  - injection H as ->. auto.
  - rewrite (IH _ _ H) at 1. apply perm_swap.
Qed.

Definition reaches (id : Z) (e : event) : bool :=
  match e with EUse _ (Rust i) | EGot _ (Rust i) _ => Z.eqb i id | _ => false end.

Lemma den_alive H M a id : den H M a = Some (Rust id) -> 0 < sumc (objects id) H.
Proof.
  unfold den. destruct (lookup a H) as [[c n]|] eqn:E; [|discriminate]. destruct c; try discriminate.
  - injection 1 as ->. pose proof (sumc_pos (objects id) _ _ _ _ E) as Q. cbn in Q. rewrite b1_eqb_refl in Q. lia.
  - destruct (lookup h M); discriminate.
Qed.

Lemma den_handle_alive H M t h w id : den_handle H M t h = Some w -> match w with Rust i => Z.eqb i id | _ => false end = true ->
  0 < sumc (objects id) H.
Proof.
  destruct w; [|discriminate]. intros D E. apply Z.eqb_eq in E. subst. destruct t; cbn in D; [eapply den_alive; eauto|].
  destruct (is_foreign h); [destruct (lookup h M); discriminate|].
  destruct (lookup h H) as [[[| |a] n]|]; try discriminate. eapply den_alive; eauto.
Qed.

(** Logging an innocent event. *)
Lemma Log_ev H l e : Log H l -> e <> EBad -> got_ok e -> (forall id, is_new id e = false) -> (forall id, is_drop id e = false) ->
  (forall id, reaches id e = true -> 0 < sumc (objects id) H) -> Log H (e :: l).
Proof.
  intros [G1 G2 G3 G4] N1 N2 N3 N4 N5. constructor; auto.
  - intros [X|X]; [congruence|auto].
  - intros i. rewrite !count_cons, N3, N4. cbn. auto.
  - split; [|auto]. destruct e as [| i | of [i|i] | | w [i|i] h |]; auto.
    + specialize (N4 i). cbn in N4. rewrite Z.eqb_refl in N4. discriminate.
    + specialize (N5 i ltac:(cbn; apply Z.eqb_refl)). specialize (G3 i). unfold is_drop, is_new in G3. lia.
    + specialize (N5 i ltac:(cbn; apply Z.eqb_refl)). specialize (G3 i). unfold is_drop, is_new in G3. lia.
Qed.

Lemma claim_holds H M nx C t h w : Inv H M nx C -> In (t, h, w) C -> holds H M (t, h, w).
Proof. intros I X. pose proof (i_claims _ _ _ _ I) as J. eapply Forall_forall in J; eauto. Qed.

Lemma den_root H M nx C a w : Inv H M nx ((TObj, a, Some w) :: C) ->
  exists c n, den H M a = Some w /\ lookup a H = Some (c, n) /\ is_box c = false.
Proof.
  intros I. pose proof (i_claims _ _ _ _ I) as J. inversion_clear J as [|? ? K _]. cbn in K.
  unfold den in *. destruct (lookup a H) as [[c n]|]; [|discriminate]. exists c, n. repeat split; auto.
  destruct c; auto. discriminate.
Qed.
