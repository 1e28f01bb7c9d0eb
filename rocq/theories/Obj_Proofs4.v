(** * Consequences of the invariant for every reachable state *)

From Coq Require Import Sorting.Permutation.
From Verif Require Import Base Obj_Model Obj_Spec Obj_Proofs Obj_Proofs2 Obj_Proofs3.

(** ** C17 *)

Lemma lifts_reach_sent s w g h : reachable s -> In (EGot w g h) (log s) -> w = g.
Proof.
  intros R X. pose proof (g_got _ _ (G_log _ (reach_good _ R))) as F. eapply Forall_forall in F; eauto. exact F.
Qed.

Lemma uses_reach_made s w g : reachable s -> In (EUse w g) (log s) -> w = g.
Proof.
  intros R X. pose proof (g_got _ _ (G_log _ (reach_good _ R))) as F. eapply Forall_forall in F; eauto. exact F.
Qed.

Lemma never_bad s : reachable s -> ~ In EBad (log s).
Proof. intros R. apply (g_bad _ _ (G_log _ (reach_good _ R))). Qed.

Lemma sent_handles s w h : reachable s -> In (ESent w h) (log s) ->
  h <> 0%Z /\ is_foreign h = match w with Foreign _ => true | Rust _ => false end.
Proof.
  intros R X. pose proof (g_got _ _ (G_log _ (reach_good _ R))) as F. eapply Forall_forall in F; eauto. exact F.
Qed.

(** ** C19 *)

Lemma alive_sumc id H :
  length (filter (fun x => match fst (snd x) with CObj i => Z.eqb i id | _ => false end) H) = sumc (objects id) H.
Proof.
  induction H as [|[a [c n]] H IH]; [reflexivity|]. rewrite sumc_cons. cbn [filter fst snd].
  destruct c; cbn [objects]; auto. unfold b1. destruct (Z.eqb id0 id); cbn [length]; lia.
Qed.

Lemma books_balance s id : reachable s -> alive id s + drops id s = news id s.
Proof. intros R. unfold alive. rewrite alive_sumc. apply (g_drop _ _ (G_log _ (reach_good _ R)) id). Qed.

Lemma only_live_reach s : reachable s -> only_live (log s).
Proof. intros R. apply (g_live _ _ (G_log _ (reach_good _ R))). Qed.

Lemma sum_exists {A} (f : A -> nat) l : 0 < sum f l -> exists x, In x l /\ 0 < f x.
Proof.
  induction l as [|y l IH]; [cbn; lia|]. rewrite sum_cons. intros H.
  destruct (f y) eqn:E; [destruct IH as (x & X1 & X2); [lia|]; exists x; cbn; auto | exists y; cbn; split; auto; lia].
Qed.

Lemma sumc_exists f H : NoDup (map fst H) -> 0 < sumc f H -> exists a c n, lookup a H = Some (c, n) /\ 0 < f c.
Proof.
  induction H as [|[a [c n]] H IH]; [cbn; lia|]. rewrite sumc_cons. cbn [map fst]. intros N P. inversion_clear N as [|? ? N1 N2].
  destruct (f c) eqn:E.
  - destruct (IH N2) as (b & c' & n' & L & X); [lia|]. exists b, c', n'. split; auto. cbn [lookup].
    destruct (Z.eqb_spec b a) as [Eq|Ne]; auto. subst. exfalso. apply N1. apply lookup_in in L. apply (in_map fst _ _ L).
  - exists a, c, n. split; [cbn; rewrite Z.eqb_refl; auto | lia].
Qed.

(** Every allocation that is not a double [Arc] is denoted by some claim. *)
Lemma claimed H M nx C a c n w : Inv H M nx C -> lookup a H = Some (c, n) -> den H M a = Some w ->
  exists t h v, In (t, h, v) C /\ den_handle H M t h = Some w.
Proof.
  intros I E D. destruct (i_count _ _ _ _ I _ _ _ E) as (_ & _ & N1 & N2).
  assert (Cl : forall b, 0 < sum (needs b) C -> exists t v, In (t, b, v) C /\ on_map t b = false).
  { intros b P. destruct (sum_exists _ _ P) as ([[t h] v] & X1 & X2). cbn in X2.
    destruct (on_map t h) eqn:O; [lia|]. destruct (Z.eqb_spec h b); cbn in X2; [subst; eauto | lia]. }
  assert (Hd : forall t b v, In (t, b, v) C -> exists g, den_handle H M t b = Some g).
  { intros t b v X. pose proof (claim_holds _ _ _ _ _ _ _ I X) as K. cbn in K. destruct v; eauto. }
  destruct (sum (needs a) C) eqn:S1.
  - destruct (sumc_exists (boxes a) H (i_keys _ _ _ _ I)) as (b & c' & n' & L & X); [lia|].
    destruct c' as [| |a']; cbn in X; try lia. destruct (Z.eqb_spec a' a); cbn in X; [subst a'|lia].
    destruct (i_count _ _ _ _ I _ _ _ L) as (Ev & _ & M1 & M2).
    assert (sumc (boxes b) H = 0) as B0.
    { destruct (sumc (boxes b) H) eqn:Q; auto. destruct (sumc_exists (boxes b) H (i_keys _ _ _ _ I)) as (b2 & c2 & n2 & L2 & X2); [lia|].
      destruct c2 as [| |a2]; cbn in X2; try lia. destruct (Z.eqb_spec a2 b); cbn in X2; [subst a2|lia].
      destruct (i_box _ _ _ _ I _ _ _ L2) as (c3 & m3 & L3 & L4). rewrite L in L3. injection L3 as <- <-. discriminate. }
    destruct (Cl b) as (t & v & X1 & X2); [lia|]. exists t, b, v. split; auto.
    destruct (Hd _ _ _ X1) as (g & D'). destruct t; cbn in *.
    + unfold den in D'. rewrite L in D'. discriminate.
    + rewrite X2, L. auto.
  - destruct (Cl a) as (t & v & X1 & X2); [lia|]. exists t, a, v. split; auto.
    destruct (Hd _ _ _ X1) as (g & D'). destruct t; cbn in *; auto.
    rewrite X2, E in *. unfold den in D. rewrite E in D. destruct c; discriminate.
Qed.

Lemma claims_referenced s w : In w (referenced s) <-> exists t h, In (t, h, Some w) (claims s).
Proof.
  unfold referenced, claims. rewrite !in_app_iff, !in_map_iff. split.
  - intros [(x & <- & X)|[(x & <- & X)|[(x & <- & X)|(x & <- & X)]]].
    + exists TObj, (fst x). rewrite in_app_iff. left. apply in_map_iff. exists x. auto.
    + exists (fst (fst x)), (snd (fst x)). rewrite !in_app_iff. right. left. apply in_map_iff. exists x. auto.
    + exists (t_ty x), (t_h x). rewrite !in_app_iff. do 2 right. left. apply in_map_iff. exists x. auto.
    + exists (t_ty x), (t_h x). rewrite !in_app_iff. do 3 right. apply in_map_iff. exists x. auto.
  - intros (t & h & X). rewrite !in_app_iff, !in_map_iff in X.
    destruct X as [(x & E & X)|[(x & E & X)|[(x & E & X)|(x & E & X)]]];
      unfold claim_root, claim_wrap, claim_tr in E; injection E as _ _ E.
    + left. eauto.
    + right. left. eauto.
    + do 2 right. left. eauto.
    + do 3 right. eauto.
Qed.

Lemma claims_some s t h v : In (t, h, v) (claims s) -> exists w, v = Some w.
Proof.
  unfold claims. rewrite !in_app_iff, !in_map_iff.
  intros [(x & E & X)|[(x & E & X)|[(x & E & X)|(x & E & X)]]];
    unfold claim_root, claim_wrap, claim_tr in E; injection E as _ _ <-; eauto.
Qed.

Lemma claimed_ref s a c n w : Good s -> lookup a (hp s) = Some (c, n) -> den (hp s) (fm s) a = Some w -> In w (referenced s).
Proof.
  intros G E D. destruct (claimed _ _ _ _ _ _ _ _ (G_inv _ G) E D) as (t & h & v & X1 & X2).
  destruct (claims_some _ _ _ _ X1) as (w' & ->). pose proof (claim_holds _ _ _ _ _ _ _ (G_inv _ G) X1) as K. cbn in K.
  apply claims_referenced. exists t, h. congruence.
Qed.

Lemma alive_iff s id : reachable s -> (0 < alive id s <-> In (Rust id) (referenced s)).
Proof.
  intros R. pose proof (reach_good _ R) as G. unfold alive. rewrite alive_sumc. split.
  - intros P. destruct (sumc_exists _ _ (i_keys _ _ _ _ (G_inv _ G)) P) as (a & c & n & E & X).
    destruct c; cbn in X; try lia. destruct (Z.eqb_spec id0 id); cbn in X; [subst|lia].
    eapply claimed_ref; eauto. unfold den. rewrite E. auto.
  - intros X. apply claims_referenced in X as (t & h & X).
    pose proof (claim_holds _ _ _ _ _ _ _ (G_inv _ G) X) as K. cbn in K.
    eapply den_handle_alive; eauto. cbn. apply Z.eqb_refl.
Qed.

Lemma den_foreign H M t h id : den_handle H M t h = Some (Foreign id) -> In id (map snd M).
Proof.
  assert (L : forall k, option_map Foreign (lookup k M) = Some (Foreign id) -> In id (map snd M)).
  { intros k E. destruct (lookup k M) eqn:Q; [|discriminate]. injection E as ->. apply lookup_in in Q. apply (in_map snd _ _ Q). }
  assert (D : forall a, den H M a = Some (Foreign id) -> In id (map snd M)).
  { intros a. unfold den. destruct (lookup a H) as [[[]]|]; try discriminate. eauto. }
  destruct t; cbn; eauto. destruct (is_foreign h); eauto. destruct (lookup h H) as [[[]]|]; try discriminate. eauto.
Qed.

Lemma in_lookup {A} (M : list (Z * A)) h x : NoDup (map fst M) -> In (h, x) M -> lookup h M = Some x.
Proof.
  induction M as [|[k y] M IH]; cbn; [easy|]. intros N. inversion_clear N as [|? ? N1 N2]. intros [E|X].
  - injection E as -> ->. rewrite Z.eqb_refl. auto.
  - destruct (Z.eqb_spec h k); auto. subst. exfalso. apply N1. apply (in_map fst _ _ X).
Qed.

Lemma map_iff s id : reachable s -> (In id (map snd (fm s)) <-> In (Foreign id) (referenced s)).
Proof.
  intros R. pose proof (reach_good _ R) as G. pose proof (G_inv _ G) as I. split.
  - intros X. apply in_map_iff in X as ((h & id') & E & X). cbn in E. subst.
    apply (in_lookup _ _ _ (i_mkeys _ _ _ _ I)) in X. pose proof (i_map _ _ _ _ I h) as Q. rewrite X in Q.
    destruct (sum (tokens h) (claims s)) eqn:S1.
    + destruct (sumc_exists (proxies h) _ (i_keys _ _ _ _ I)) as (a & c & n & E & P); [lia|].
      destruct c; cbn in P; try lia. destruct (Z.eqb_spec h0 h); cbn in P; [subst|lia].
      eapply claimed_ref; eauto. unfold den. rewrite E, X. auto.
    + destruct (sum_exists (tokens h) (claims s)) as ([[t k] v] & X1 & X2); [lia|]. cbn in X2.
      destruct (on_map t k) eqn:O; [|lia]. destruct (Z.eqb_spec k h); cbn in X2; [subst|lia].
      destruct (claims_some _ _ _ _ X1) as (w & ->).
      pose proof (claim_holds _ _ _ _ _ _ _ I X1) as K. cbn in K. apply claims_referenced. exists t, h.
      destruct t; cbn in O, K; [discriminate|]. rewrite O, X in K. injection K as <-. auto.
  - intros X. apply claims_referenced in X as (t & h & X).
    pose proof (claim_holds _ _ _ _ _ _ _ I X) as K. cbn in K. eapply den_foreign; eauto.
Qed.

Lemma nothing_left s : reachable s -> referenced s = [] -> hp s = [] /\ fm s = [].
Proof.
  intros R E. pose proof (reach_good _ R) as G. pose proof (G_inv _ G) as I.
  assert (C0 : claims s = []).
  { unfold referenced in E. unfold claims.
    repeat match type of E with _ ++ _ = [] => apply app_eq_nil in E as [?E E] end.
    repeat match goal with X : map _ _ = [] |- _ => apply map_eq_nil in X; rewrite X end. reflexivity. }
  assert (M0 : fm s = []).
  { destruct (fm s) as [|[h id] m] eqn:Q; auto. exfalso.
    assert (X : In (Foreign id) (referenced s)) by (apply map_iff; auto; rewrite Q; cbn; auto). rewrite E in X. destruct X. }
  split; auto. rewrite C0 in I.
  destruct (hp s) as [|[a [c n]] H] eqn:Q; auto. exfalso. rewrite <- Q in I.
  assert (L : lookup a (hp s) = Some (c, n)) by (rewrite Q; cbn; rewrite Z.eqb_refl; auto). clear Q.
  assert (B : forall b c n, lookup b (hp s) = Some (c, n) -> exists d m, lookup d (hp s) = Some (CBox b, m)).
  { intros b c' n' Lb. destruct (i_count _ _ _ _ I _ _ _ Lb) as (_ & _ & N1 & N2). cbn [sum fold_right] in N2.
    destruct (sumc_exists (boxes b) _ (i_keys _ _ _ _ I)) as (d & c2 & n2 & L2 & X2); [lia|].
    destruct c2 as [| |a2]; cbn in X2; try lia. destruct (Z.eqb_spec a2 b); cbn in X2; [subst a2|lia]. eauto. }
  destruct (B _ _ _ L) as (b & n1 & L1). destruct (B _ _ _ L1) as (d & n2 & L2).
  destruct (i_box _ _ _ _ I _ _ _ L2) as (c3 & m3 & L3 & L4). rewrite L1 in L3. injection L3 as <- <-. discriminate.
Qed.
