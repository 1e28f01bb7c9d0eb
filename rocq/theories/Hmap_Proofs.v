(** * Every history of a handle map is legal *)

From Verif Require Import Base Hmap_Model Hmap_Spec.

Local Open Scope Z_scope.

Definition hnd (k : lang) (i : Z) : Z := wrap k (1 + 2 * i).

Lemma hnd_odd k i : Z.odd (hnd k i) = true.
Proof.
  unfold hnd, wrap. destruct k.
  - rewrite Z.odd_add_mul_2. reflexivity.
  - rewrite Z.mod_eq by lia.
    set (q := (1 + 2 * i + 9223372036854775808) / 18446744073709551616).
    replace (1 + 2 * i + 9223372036854775808 - 18446744073709551616 * q - 9223372036854775808)
      with (1 + 2 * (i - 9223372036854775808 * q)) by lia.
    rewrite Z.odd_add_mul_2. reflexivity.
Qed.

Lemma hnd_next k i : wrap k (hnd k i + 2) = hnd k (i + 1).
Proof.
  unfold hnd, wrap. destruct k; [lia|].
  set (m := 18446744073709551616). set (d := 9223372036854775808).
  replace ((1 + 2 * i + d) mod m - d + 2 + d) with ((1 + 2 * i + d) mod m + 2) by lia.
  rewrite Z.add_mod_idemp_l by (unfold m; lia). do 2 f_equal. lia.
Qed.

Lemma hnd_inj k i j : 0 <= i -> 0 <= j -> (k = Kotlin -> i < 2 ^ 63 /\ j < 2 ^ 63) -> hnd k i = hnd k j -> i = j.
Proof.
  unfold hnd, wrap. intros Hi Hj B. destruct k; [lia|]. destruct (B eq_refl) as [B1 B2].
  change (2 ^ 63) with 9223372036854775808 in *.
  pose proof (Z.div_mod (1 + 2 * i + 9223372036854775808) 18446744073709551616 ltac:(lia)).
  pose proof (Z.div_mod (1 + 2 * j + 9223372036854775808) 18446744073709551616 ltac:(lia)).
  pose proof (Z.mod_pos_bound (1 + 2 * i + 9223372036854775808) 18446744073709551616 ltac:(lia)).
  pose proof (Z.mod_pos_bound (1 + 2 * j + 9223372036854775808) 18446744073709551616 ltac:(lia)).
  lia.
Qed.

Local Open Scope nat_scope.

Definition crit (p : pc) : bool :=
  match p with Inside _ | Ins1 _ | Ins2 _ _ | Ins3 _ _ | Ins4 _ | Leave | LeaveFail => true | _ => false end.

Definition asked (t : nat) (o : obj) (e : option event) : Prop :=
  e = Some (ECall t (Insert o)) \/ exists h0, e = Some (ERead t h0 (Some o)).

Definition pc_ok (p : pc) (t : nat) (e : option event) : Prop :=
  match p with
  | Idle => returned e
  | Want r => e = Some (ECall t r)
  | Inside r => e = Some (ECall t r) /\ needs_lock r = true
  | Ins1 o | Ins2 o _ | Ins3 o _ => asked t o e
  | Ins4 c => exists o, e = Some (EPut t c o)
  | Leave => returned e
  | LeaveFail => exists h, e = Some (ERead t h None)
  end.

Record Inv (k : lang) (n : Z) (s : st) : Prop := {
  i_legal : legal (log s);
  i_pc : forall t, pc_ok (pcs s t) t (last t (log s));
  i_crit : forall t, k = Locked -> crit (pcs s t) = true -> lock s = Some t;
  i_lock : forall t, k = Locked -> lock s = Some t -> crit (pcs s t) = true;
  i_two : forall t o c, pcs s t = Ins2 o c -> k = Locked /\ c = counter s;
  i_cnt : counter s = hnd k n;
  i_nn : (0 <= n)%Z;
  i_pend : forall t o c, pcs s t = Ins3 o c -> (exists i, 0 <= i < n /\ c = hnd k i)%Z /\ puts c (log s) = 0;
  i_uniq : forall t u o o' c, pcs s t = Ins3 o c -> pcs s u = Ins3 o' c -> t = u;
  i_puts : forall h, 0 < puts h (log s) -> (exists i, 0 <= i < n /\ h = hnd k i)%Z;
  i_map : forall h, lookup h (map_ s) = live (log s) h;
  i_some : forall h o, live (log s) h = Some o -> 0 < puts h (log s);
  i_keys : NoDup (map fst (map_ s));
  i_size : length (map_ s) + all_removals (log s) = all_puts (log s) }.

Lemma Inv_init k : Inv k 0 init.
Proof.
  constructor; cbn; auto; try discriminate; try lia; try easy.
  - destruct k; reflexivity.
  - constructor.
Qed.

Lemma upd_same f t p : upd f t p t = p.
Proof. unfold upd. rewrite Nat.eqb_refl. auto. Qed.
Lemma upd_other f t p u : u <> t -> upd f t p u = f u.
Proof. unfold upd. intros H. destruct (Nat.eqb_spec u t); congruence. Qed.
Lemma last_same e l : last (thread e) (e :: l) = Some e.
Proof. cbn. rewrite Nat.eqb_refl. auto. Qed.
Lemma last_other e l u : u <> thread e -> last u (e :: l) = last u l.
Proof. cbn. intros H. destruct (Nat.eqb_spec (thread e) u); congruence. Qed.

Definition plain (e : event) : bool := match e with EPut _ _ _ | ERem _ _ (Some _) => false | _ => true end.

Lemma plain_live e l h : plain e = true -> live (e :: l) h = live l h.
Proof. destruct e; try discriminate; auto. destruct r; [discriminate|auto]. Qed.
Lemma plain_puts e l h : plain e = true -> puts h (e :: l) = puts h l.
Proof. destruct e; try discriminate; auto. Qed.
Lemma plain_all e l : plain e = true -> all_puts (e :: l) = all_puts l /\ all_removals (e :: l) = all_removals l.
Proof. destruct e; try discriminate; auto. destruct r; [discriminate|auto]. Qed.

Definition calm (p : pc) : bool := match p with Ins2 _ _ | Ins3 _ _ => false | _ => true end.

(** A step that changes neither the map nor the counter, with an event. *)
Lemma Inv_say k n s e p lk :
  Inv k n s -> plain e = true -> calm p = true -> allowed e (log s) ->
  pc_ok p (thread e) (Some e) ->
  (k = Locked -> lk = lock s /\ crit p = crit (pcs s (thread e)) \/
     lk = None /\ crit p = false /\ crit (pcs s (thread e)) = true) ->
  Inv k n (mk (map_ s) (counter s) lk (upd (pcs s) (thread e) p) (e :: log s)).
Proof.
  intros [I1 I2 I3 I0 I4 I5 I6 I7 I8 I9 I10 I11 I12 I13] Pl Ca Al Pk Lk.
  destruct (plain_all e (log s) Pl) as [A1 A2]. constructor; cbn [map_ counter lock pcs log]; auto.
  - cbn. auto.
  - intros u. destruct (Nat.eq_dec u (thread e)) as [->|N].
    + rewrite upd_same, last_same. auto.
    + rewrite upd_other, last_other by auto. auto.
  - intros u Hk C. destruct (Lk Hk) as [[-> L2]|(-> & L2 & L3)].
    + destruct (Nat.eq_dec u (thread e)) as [->|N]; [rewrite upd_same in C | rewrite upd_other in C by auto]; apply I3; congruence.
    + destruct (Nat.eq_dec u (thread e)) as [->|N]; [rewrite upd_same in C; congruence | rewrite upd_other in C by auto].
      exfalso. apply N. pose proof (I3 _ Hk C). pose proof (I3 _ Hk L3). congruence.
  - intros u Hk Q. destruct (Lk Hk) as [[-> L2]|(-> & L2 & L3)]; [|discriminate].
    specialize (I0 _ Hk Q). destruct (Nat.eq_dec u (thread e)) as [->|N]; [rewrite upd_same; congruence | rewrite upd_other; auto].
  - intros u o c E. destruct (Nat.eq_dec u (thread e)) as [->|N]; [rewrite upd_same in E; subst; discriminate | rewrite upd_other in E by auto]. eauto.
  - intros u o c E. rewrite plain_puts by auto.
    destruct (Nat.eq_dec u (thread e)) as [->|N]; [rewrite upd_same in E; subst; discriminate | rewrite upd_other in E by auto]. eauto.
  - intros u v o o' c E1 E2.
    destruct (Nat.eq_dec u (thread e)) as [->|N]; [rewrite upd_same in E1; subst; discriminate | rewrite upd_other in E1 by auto].
    destruct (Nat.eq_dec v (thread e)) as [->|N']; [rewrite upd_same in E2; subst; discriminate | rewrite upd_other in E2 by auto]. eauto.
  - intros h. rewrite plain_puts by auto. auto.
  - intros h. rewrite plain_live by auto. auto.
  - intros h o. rewrite plain_live, plain_puts by auto. eauto.
  - rewrite A1, A2. auto.
Qed.

(** ... and without. *)
Lemma Inv_go k n s t p lk :
  Inv k n s -> calm p = true ->
  pc_ok p t (last t (log s)) ->
  (k = Locked -> lk = lock s /\ crit p = crit (pcs s t) \/
     lk = None /\ crit p = false /\ crit (pcs s t) = true \/
     lk = Some t /\ lock s = None /\ crit p = true) ->
  Inv k n (mk (map_ s) (counter s) lk (upd (pcs s) t p) (log s)).
Proof.
  intros [I1 I2 I3 I0 I4 I5 I6 I7 I8 I9 I10 I11 I12 I13] Ca Pk Lk.
  constructor; cbn [map_ counter lock pcs log]; auto.
  - intros u. destruct (Nat.eq_dec u t) as [->|N].
    + rewrite upd_same. auto.
    + rewrite upd_other by auto. auto.
  - intros u Hk C. destruct (Lk Hk) as [[-> L2]|[(-> & L2 & L3)|(-> & L2 & L3)]].
    + destruct (Nat.eq_dec u t) as [->|N]; [rewrite upd_same in C | rewrite upd_other in C by auto]; apply I3; congruence.
    + destruct (Nat.eq_dec u t) as [->|N]; [rewrite upd_same in C; congruence | rewrite upd_other in C by auto].
      exfalso. apply N. pose proof (I3 _ Hk C). pose proof (I3 _ Hk L3). congruence.
    + destruct (Nat.eq_dec u t) as [->|N]; auto. rewrite upd_other in C by auto.
      pose proof (I3 _ Hk C). congruence.
  - intros u Hk Q. destruct (Lk Hk) as [[-> L2]|[(-> & L2 & L3)|(-> & L2 & L3)]]; [|discriminate|].
    + specialize (I0 _ Hk Q). destruct (Nat.eq_dec u t) as [->|N]; [rewrite upd_same; congruence | rewrite upd_other; auto].
    + injection Q as <-. rewrite upd_same. auto.
  - intros u o c E. destruct (Nat.eq_dec u t) as [->|N]; [rewrite upd_same in E; subst; discriminate | rewrite upd_other in E by auto]. eauto.
  - intros u o c E.
    destruct (Nat.eq_dec u t) as [->|N]; [rewrite upd_same in E; subst; discriminate | rewrite upd_other in E by auto]. eauto.
  - intros u v o o' c E1 E2.
    destruct (Nat.eq_dec u t) as [->|N]; [rewrite upd_same in E1; subst; discriminate | rewrite upd_other in E1 by auto].
    destruct (Nat.eq_dec v t) as [->|N']; [rewrite upd_same in E2; subst; discriminate | rewrite upd_other in E2 by auto]. eauto.
Qed.

(** Taking a handle from the counter. *)
Lemma Inv_take k n s t o :
  Inv k n s -> (k = Kotlin -> n < 2 ^ 63)%Z -> asked t o (last t (log s)) ->
  (k = Locked -> crit (pcs s t) = true) ->
  Inv k (n + 1) (mk (map_ s) (wrap k (counter s + 2)) (lock s) (upd (pcs s) t (Ins3 o (counter s))) (log s)).
Proof.
  intros [I1 I2 I3 I0 I4 I5 I6 I7 I8 I9 I10 I11 I12 I13] B As Cr.
  assert (F : puts (counter s) (log s) = 0).
  { destruct (puts (counter s) (log s)) eqn:E; auto. destruct (I9 (counter s)) as (i & Hi & Q); [lia|].
    rewrite I5 in Q. apply hnd_inj in Q; lia. }
  assert (Fp : forall u o', pcs s u = Ins3 o' (counter s) -> False).
  { intros u o' E. destruct (I7 _ _ _ E) as [(i & Hi & Q) _]. rewrite I5 in Q. apply hnd_inj in Q; lia. }
  constructor; cbn [map_ counter lock pcs log]; auto.
  - intros u. destruct (Nat.eq_dec u t) as [->|N].
    + rewrite upd_same. auto.
    + rewrite upd_other by auto. auto.
  - intros u Hk C. destruct (Nat.eq_dec u t) as [->|N]; [auto | rewrite upd_other in C by auto]; auto.
  - intros u Hk Q. destruct (Nat.eq_dec u t) as [->|N]; [rewrite upd_same; auto | rewrite upd_other; auto].
  - intros u o' c E. destruct (Nat.eq_dec u t) as [->|N]; [rewrite upd_same in E; discriminate | rewrite upd_other in E by auto].
    destruct (I4 _ _ _ E) as [-> ->]. exfalso. apply N.
    pose proof (I3 u eq_refl ltac:(rewrite E; auto)). pose proof (I3 t eq_refl (Cr eq_refl)). congruence.
  - rewrite I5. apply hnd_next.
  - lia.
  - intros u o' c E. destruct (Nat.eq_dec u t) as [->|N].
    + rewrite upd_same in E. injection E as <- <-. split; auto. exists n. split; [lia|auto].
    + rewrite upd_other in E by auto. destruct (I7 _ _ _ E) as [(i & Hi & Q) ?]. split; auto. exists i. split; [lia|auto].
  - intros u v o1 o2 c E1 E2.
    destruct (Nat.eq_dec u t) as [->|N]; [rewrite upd_same in E1 | rewrite upd_other in E1 by auto];
    destruct (Nat.eq_dec v t) as [->|N']; [auto | rewrite upd_other in E2 by auto | rewrite upd_same in E2 | rewrite upd_other in E2 by auto; eauto].
    + injection E1 as <- <-. exfalso. eauto.
    + injection E2 as <- <-. exfalso. eauto.
  - intros h P. destruct (I9 _ P) as (i & Hi & Q). exists i. split; [lia|auto].
Qed.

Lemma del_none h l : lookup h l = None -> del h l = l.
Proof.
  induction l as [|[k o] l IH]; cbn; auto. destruct (Z.eqb_spec h k); [discriminate|]. intros E. rewrite IH; auto.
Qed.

Lemma lookup_keys h l : In h (map fst l) <-> lookup h l <> None.
Proof.
  induction l as [|[k o] l IH]; cbn; [easy|]. destruct (Z.eqb_spec h k); [subst; split; [discriminate|auto]|].
  rewrite <- IH. split; [intros [?|?]; [congruence|auto] | auto].
Qed.

Lemma lookup_del h k l : lookup h (del k l) = if Z.eqb k h then None else lookup h l.
Proof.
  induction l as [|[j o] l IH]; cbn; [destruct (Z.eqb k h); auto|].
  destruct (Z.eqb_spec k j) as [Eq|N].
  - subst. rewrite IH. destruct (Z.eqb_spec j h) as [E|E]; auto. destruct (Z.eqb_spec h j); congruence.
  - cbn. rewrite IH. destruct (Z.eqb_spec k h) as [E|E]; auto. subst. destruct (Z.eqb_spec h j); congruence.
Qed.

Lemma del_keys h l x : In x (map fst (del h l)) -> In x (map fst l).
Proof. induction l as [|[k o] l IH]; cbn; auto. destruct (Z.eqb h k); cbn; intuition. Qed.

Lemma NoDup_del h l : NoDup (map fst l) -> NoDup (map fst (del h l)).
Proof.
  induction l as [|[k o] l IH]; cbn; auto. intros N. inversion_clear N. destruct (Z.eqb h k); auto.
  cbn. constructor; auto. intros X. apply H. eapply del_keys; eauto.
Qed.

Lemma del_length h l o : NoDup (map fst l) -> lookup h l = Some o -> length l = S (length (del h l)).
Proof.
  induction l as [|[k o'] l IH]; cbn; [discriminate|]. intros N. inversion_clear N as [|? ? N1 N2]. destruct (Z.eqb_spec h k).
  - intros _. subst. rewrite del_none; auto. destruct (lookup k l) eqn:E; auto. exfalso. apply N1. apply lookup_keys. congruence.
  - intros E. cbn. rewrite (IH N2 E). auto.
Qed.

(** Storing the entry. *)
Lemma Inv_put k n s t o c :
  Inv k n s -> pcs s t = Ins3 o c ->
  Inv k n (mk (put c o (map_ s)) (counter s) (lock s) (upd (pcs s) t (Ins4 c)) (EPut t c o :: log s)).
Proof.
  intros [I1 I2 I3 I0 I4 I5 I6 I7 I8 I9 I10 I11 I12 I13] E.
  destruct (I7 _ _ _ E) as [(i & Hi & Q) F].
  pose proof (I2 t) as As. rewrite E in As. cbn in As.
  assert (L : live (log s) c = None). { destruct (live (log s) c) eqn:L; auto. apply I11 in L. lia. }
  assert (L' : lookup c (map_ s) = None) by (rewrite I10; auto).
  assert (D : del c (map_ s) = map_ s) by (apply del_none; auto).
  assert (Pu : forall h, puts h (EPut t c o :: log s) = (if Z.eqb c h then 1 else 0) + puts h (log s)).
  { intros h. unfold puts. cbn [filter]. destruct (Z.eqb c h); reflexivity. }
  constructor; cbn [map_ counter lock pcs log]; auto.
  - cbn. repeat split; auto. rewrite Q. apply hnd_odd.
  - intros u. destruct (Nat.eq_dec u t) as [->|N].
    + rewrite upd_same. cbn. rewrite Nat.eqb_refl. eauto.
    + rewrite upd_other, last_other by auto. auto.
  - intros u Hk C. destruct (Nat.eq_dec u t) as [->|N]; [|rewrite upd_other in C by auto; auto].
    apply I3; auto. rewrite E. auto.
  - intros u Hk Q'. destruct (Nat.eq_dec u t) as [->|N]; [rewrite upd_same; auto | rewrite upd_other; auto].
  - intros u o' c' Eu. destruct (Nat.eq_dec u t) as [->|N]; [rewrite upd_same in Eu; discriminate | rewrite upd_other in Eu by auto]. eauto.
  - intros u o' c' Eu. destruct (Nat.eq_dec u t) as [->|N]; [rewrite upd_same in Eu; discriminate | rewrite upd_other in Eu by auto].
    destruct (I7 _ _ _ Eu) as [X Y]. split; auto. rewrite Pu, Y. destruct (Z.eqb_spec c c') as [Eq|Ne]; auto.
    subst c'. exfalso. apply N. eauto.
  - intros u v o1 o2 c' E1 E2.
    destruct (Nat.eq_dec u t) as [->|N]; [rewrite upd_same in E1; discriminate | rewrite upd_other in E1 by auto].
    destruct (Nat.eq_dec v t) as [->|N']; [rewrite upd_same in E2; discriminate | rewrite upd_other in E2 by auto]. eauto.
  - intros h. rewrite Pu. destruct (Z.eqb_spec c h) as [Eq|Ne]; [subst; eauto | auto].
  - intros h. unfold put. rewrite D. cbn [lookup live]. rewrite Z.eqb_sym. destruct (Z.eqb c h); auto.
  - intros h o'. rewrite Pu. cbn [live]. destruct (Z.eqb c h); [lia|]. intros X. apply I11 in X. lia.
  - unfold put. rewrite D. cbn. constructor; auto. intros X. apply lookup_keys in X. auto.
  - unfold put. rewrite D. unfold all_removals, all_puts in *. cbn [filter length]. lia.
Qed.

(** Removing an entry. *)
Lemma Inv_rem k n s t h o p :
  Inv k n s -> lookup h (map_ s) = Some o -> last t (log s) = Some (ECall t (Remove h)) ->
  p = Idle \/ p = Leave -> (k = Locked -> crit p = crit (pcs s t)) ->
  Inv k n (mk (del h (map_ s)) (counter s) (lock s) (upd (pcs s) t p) (ERem t h (Some o) :: log s)).
Proof.
  intros [I1 I2 I3 I0 I4 I5 I6 I7 I8 I9 I10 I11 I12 I13] L As Hp Cr.
  assert (Pk : pc_ok p t (Some (ERem t h (Some o)))) by (destruct Hp; subst; exact I).
  assert (Ca : calm p = true) by (destruct Hp; subst; auto).
  constructor; cbn [map_ counter lock pcs log]; auto.
  - cbn. repeat split; auto. rewrite <- I10. auto.
  - intros u. destruct (Nat.eq_dec u t) as [->|N].
    + rewrite upd_same. cbn [last thread]. rewrite Nat.eqb_refl. auto.
    + rewrite upd_other, last_other by auto. auto.
  - intros u Hk C. destruct (Nat.eq_dec u t) as [->|N]; [|rewrite upd_other in C by auto; auto].
    apply I3; auto. rewrite upd_same in C. rewrite <- Cr; auto.
  - intros u Hk Q. specialize (I0 _ Hk Q). destruct (Nat.eq_dec u t) as [->|N]; [rewrite upd_same, Cr; auto | rewrite upd_other; auto].
  - intros u o' c' Eu. destruct (Nat.eq_dec u t) as [->|N]; [rewrite upd_same in Eu; subst; discriminate | rewrite upd_other in Eu by auto]. eauto.
  - intros u o' c' Eu. destruct (Nat.eq_dec u t) as [->|N]; [rewrite upd_same in Eu; subst; discriminate | rewrite upd_other in Eu by auto].
    exact (I7 _ _ _ Eu).
  - intros u v o1 o2 c' E1 E2.
    destruct (Nat.eq_dec u t) as [->|N]; [rewrite upd_same in E1; subst; discriminate | rewrite upd_other in E1 by auto].
    destruct (Nat.eq_dec v t) as [->|N']; [rewrite upd_same in E2; subst; discriminate | rewrite upd_other in E2 by auto]. eauto.
  - intros g. rewrite lookup_del. cbn [live]. destruct (Z.eqb h g); auto.
  - intros g o'. cbn [live]. destruct (Z.eqb h g); [discriminate|]. exact (I11 g o').
  - apply NoDup_del; auto.
  - pose proof (del_length _ _ _ I12 L). unfold all_removals, all_puts in *. cbn [filter length]. lia.
Qed.

Lemma Inv_body k n s t r after fail :
  Inv k n s -> last t (log s) = Some (ECall t r) ->
  (after = Idle /\ crit (pcs s t) = false /\ (k = Locked -> needs_lock r = false) \/
   after = Leave /\ crit (pcs s t) = true /\ needs_lock r = true) ->
  (fail = LeaveFail \/ k = Locked /\ needs_lock r = false) ->
  Inv k n (body t r after fail s).
Proof.
  intros I As Af Fa. unfold body.
  destruct r; unfold goto, say, set_map; cbn [map_ counter lock pcs log].
  - apply Inv_go; auto.
    + cbn. left. auto.
    + intros Hk. left. split; auto. destruct Af as [(_ & _ & X)|(_ & X & _)]; auto. specialize (X Hk). discriminate.
  - apply (Inv_say _ _ _ (EGot t h (lookup h (map_ s)))); auto; try (destruct Af as [(-> & _)|(-> & _)]; cbn; auto; fail).
    + cbn. split; auto. apply (i_map _ _ _ I).
    + intros Hk. left. split; auto. destruct Af as [(-> & X & _)|(-> & X & _)]; cbn; rewrite X; auto.
  - destruct (lookup h (map_ s)) as [o|] eqn:L; cbn [map_ counter lock pcs log].
    + apply (Inv_say _ _ _ (ERead t h (Some o))); auto.
      * cbn. split; auto. rewrite <- (i_map _ _ _ I). auto.
      * cbn. right. eauto.
      * intros Hk. left. split; auto. cbn. destruct Af as [(_ & _ & X)|(_ & X & _)]; auto. specialize (X Hk). discriminate.
    + destruct Fa as [->|[-> X]]; [|discriminate].
      apply (Inv_say _ _ _ (ERead t h None)); auto.
      * cbn. split; auto. rewrite <- (i_map _ _ _ I). auto.
      * cbn. eauto.
      * intros Hk. left. split; auto. cbn. destruct Af as [(_ & _ & X)|(_ & X & _)]; auto. specialize (X Hk). discriminate.
  - destruct (lookup h (map_ s)) as [o|] eqn:L.
    + apply Inv_rem; auto; [destruct Af as [(-> & _)|(-> & _)]; auto|].
      intros Hk. destruct Af as [(-> & X & _)|(-> & X & _)]; auto.
    + rewrite del_none by auto.
      apply (Inv_say _ _ _ (ERem t h None)); auto; try (destruct Af as [(-> & _)|(-> & _)]; cbn; auto; fail).
      * cbn. split; auto. rewrite <- (i_map _ _ _ I). auto.
      * intros Hk. left. split; auto. destruct Af as [(-> & X & _)|(-> & X & _)]; cbn; rewrite X; auto.
  - apply (Inv_say _ _ _ (ESize t (length (map_ s)))); auto; cbn.
    + split; auto. apply (i_size _ _ _ I).
    + auto.
    + intros Hk. left. split; auto. destruct Af as [(_ & X & _)|(_ & _ & X)]; [auto|discriminate].
Qed.

Ltac unf := unfold goto, say, set_map, set_lock, set_counter; cbn [map_ counter lock pcs log].

Lemma Inv_step k n s x s' : (k = Kotlin -> n < 2 ^ 63)%Z -> Inv k n s -> step k s x = Some s' ->
  exists n', (n <= n' <= n + 1)%Z /\ Inv k n' s'.
Proof.
  intros B I H. destruct x as [t r|t]; cbn [step] in H.
  - destruct (pcs s t) eqn:E; try discriminate. injection H as <-. exists n. split; [lia|].
    unf; apply (Inv_say _ _ _ (ECall t r)); auto.
    + cbn. pose proof (i_pc _ _ _ I t) as P. rewrite E in P. exact P.
    + reflexivity.
    + intros _. left. split; auto. cbn. rewrite E. auto.
  - pose proof (i_pc _ _ _ I t) as P. destruct (pcs s t) as [|r|r|o|o c|o c|c| |] eqn:E; try discriminate; cbn [pc_ok] in P.
    + exists n. split; [lia|]. destruct k.
      * destruct (needs_lock r) eqn:N.
        -- destruct (lock s) eqn:L; [discriminate|]. injection H as <-. unf; apply Inv_go; auto. cbn. auto.
        -- injection H as <-. apply Inv_body; auto. left. rewrite E. auto.
      * injection H as <-. apply Inv_body; auto. left. rewrite E. repeat split; auto. discriminate.
    + injection H as <-. exists n. split; [lia|]. destruct P as [P N]. apply Inv_body; auto. right. rewrite E. auto.
    + destruct k; injection H as <-.
      * exists n. split; [lia|]. unfold goto.
        destruct I as [I1 I2 I3 I0 I4 I5 I6 I7 I8 I9 I10 I11 I12 I13].
        constructor; cbn [map_ counter lock pcs log]; auto.
        -- intros u. destruct (Nat.eq_dec u t) as [->|N]; [rewrite upd_same; auto | rewrite upd_other by auto; auto].
        -- intros u _ C. destruct (Nat.eq_dec u t) as [->|N]; [|rewrite upd_other in C by auto; auto]. apply I3; auto. rewrite E. auto.
        -- intros u _ Q. destruct (Nat.eq_dec u t) as [->|N]; [rewrite upd_same; auto | rewrite upd_other; auto].
        -- intros u o' c Eu. destruct (Nat.eq_dec u t) as [->|N]; [rewrite upd_same in Eu; injection Eu as <- <-; auto | rewrite upd_other in Eu by auto; eauto].
        -- intros u o' c Eu. destruct (Nat.eq_dec u t) as [->|N]; [rewrite upd_same in Eu; discriminate | rewrite upd_other in Eu by auto; eauto].
        -- intros u v o1 o2 c' E1 E2.
           destruct (Nat.eq_dec u t) as [->|N]; [rewrite upd_same in E1; discriminate | rewrite upd_other in E1 by auto].
           destruct (Nat.eq_dec v t) as [->|N']; [rewrite upd_same in E2; discriminate | rewrite upd_other in E2 by auto]. eauto.
      * exists (n + 1)%Z. split; [lia|]. unf; apply Inv_take; auto. discriminate.
    + injection H as <-. destruct (i_two _ _ _ I _ _ _ E) as [-> ->].
      exists (n + 1)%Z. split; [lia|]. unf; apply Inv_take; auto. rewrite E. auto.
    + injection H as <-. exists n. split; [lia|]. unf; apply Inv_put; auto.
    + exists n. split; [lia|]. destruct k; injection H as <-.
      * unf; apply (Inv_say _ _ _ (ENew t c)); auto; cbn; auto. intros _. right. rewrite E. auto.
      * unf; apply (Inv_say _ _ _ (ENew t c)); auto; cbn; auto. discriminate.
    + injection H as <-. exists n. split; [lia|]. unf; apply Inv_go; auto. intros _. right. left. rewrite E. auto.
    + exists n. split; [lia|]. destruct k; injection H as <-.
      * unf; apply (Inv_say _ _ _ (EFail t)); auto; cbn; auto. intros _. right. rewrite E. auto.
      * unf; apply (Inv_say _ _ _ (EFail t)); auto; cbn; auto. discriminate.
Qed.

Lemma Inv_run k : forall xs n s s', Inv k n s -> (k = Kotlin -> n + Z.of_nat (length xs) < 2 ^ 63)%Z ->
  run k s xs = Some s' -> exists n', Inv k n' s'.
Proof.
  induction xs as [|x xs IH]; intros n s s' I B H; cbn [run] in H; [injection H as <-; eauto|].
  destruct (step k s x) as [s1|] eqn:E; [|discriminate]. cbn [length] in B.
  assert (B' : k = Kotlin -> (n < 2 ^ 63)%Z) by (intros e; specialize (B e); lia).
  destruct (Inv_step _ _ _ _ _ B' I E) as (n1 & Hn & I1).
  eapply IH; eauto. intros e. specialize (B e). lia.
Qed.

Lemma reach_inv k s : reachable k s -> exists n, Inv k n s.
Proof. intros (xs & H & B). eapply Inv_run; eauto using Inv_init. Qed.

Lemma reach_legal k s : reachable k s -> legal (log s).
Proof. intros R. destruct (reach_inv _ _ R) as (n & I). apply (i_legal _ _ _ I). Qed.

(** ** Consequences of legality alone *)

Lemma live_put l h o : live l h = Some o -> 0 < puts h l.
Proof.
  induction l as [|e l IH]; cbn [live]; [discriminate|]. unfold puts in *.
  destruct e as [| | | | |t k [r|]| |]; cbn [filter]; auto.
  - destruct (Z.eqb_spec h0 h); cbn [length]; auto. lia.
  - destruct (Z.eqb k h); [discriminate|auto].
Qed.

Lemma gone l h : legal l -> 0 < removals h l -> live l h = None /\ removals h l = 1 /\ puts h l = 1.
Proof.
  assert (P1 : forall l, legal l -> puts h l <= 1).
  { clear l. induction l as [|e l IH]; cbn [legal]; [cbn; lia|]. intros [A L]. specialize (IH L). unfold puts in *.
    destruct e; cbn [filter]; auto. destruct (Z.eqb_spec h0 h) as [Eq|]; auto. subst. cbn in A. destruct A as (_ & A & _). unfold puts in A.
    cbn [length]. lia. }
  induction l as [|e l IH]; cbn [legal]; [cbn; lia|]. intros [A L] R. specialize (P1 _ L) as P1'.
  unfold removals, puts in *.
  destruct e as [| | | | |t k [r|]| |]; cbn [filter live] in *; auto.
  - destruct (Z.eqb_spec h0 h) as [Eq|]; auto. subst. exfalso. destruct (IH L R) as (_ & _ & X). cbn in A. destruct A as (_ & A & _). unfold puts in A. lia.
  - destruct (Z.eqb_spec k h) as [Eq|]; auto. subst. cbn [length] in *. destruct A as [_ A].
    pose proof (live_put l h r (eq_sym A)) as X. unfold puts in X.
    destruct (length (filter _ l)) eqn:Q in R |- *; [repeat split; auto; lia|].
    destruct (IH L) as (Y & _); [lia|]. congruence.
Qed.

Lemma after_removal l2 l1 h : legal (l2 ++ l1) -> 0 < removals h l1 ->
  forall e, In e l2 -> ~ looks h e.
Proof.
  induction l2 as [|e l2 IH]; cbn [app legal]; [easy|]. intros [A L] R e' [<-|X]; [|eauto].
  assert (R' : 0 < removals h (l2 ++ l1)).
  { unfold removals in *. rewrite filter_app, app_length. lia. }
  destruct (gone _ _ L R') as (G & _).
  destruct e; cbn [looks]; try tauto; intros [-> N]; destruct A as [_ A]; congruence.
Qed.

Lemma remove_once k s h : reachable k s -> removals h (log s) <= 1.
Proof.
  intros R. apply reach_legal in R. destruct (removals h (log s)) eqn:E; [lia|].
  destruct (gone _ h R); lia.
Qed.

Lemma invalid_forever k s l2 l1 h : reachable k s -> log s = l2 ++ l1 -> 0 < removals h l1 ->
  forall e, In e l2 -> ~ looks h e.
Proof. intros R E. apply reach_legal in R. rewrite E in R. eauto using after_removal. Qed.

(** ** Every call can finish *)

Definition rank (p : pc) : nat :=
  match p with
  | Idle => 0 | Leave => 1 | LeaveFail => 1 | Ins4 _ => 1 | Ins3 _ _ => 2 | Ins2 _ _ => 3 | Ins1 _ => 4 | Inside _ => 5 | Want _ => 6
  end.

Ltac rk := unfold body, goto, say, set_map, set_lock, set_counter; cbn [map_ counter lock pcs log].

Lemma inside_go k n s t : Inv k n s -> (k = Kotlin -> pcs s t <> Idle) -> (k = Locked -> crit (pcs s t) = true) ->
  exists s', step k s (Go t) = Some s' /\ rank (pcs s' t) < rank (pcs s t) /\
    (forall u, u <> t -> pcs s' u = pcs s u) /\ (k = Locked -> crit (pcs s' t) = true \/ lock s' = None).
Proof.
  intros I Hk Hl. cbn [step]. destruct (pcs s t) as [|r|r|o|o c|o c|c| |] eqn:E.
  - destruct k; [specialize (Hl eq_refl); discriminate | exfalso; apply (Hk eq_refl eq_refl)].
  - destruct k; [specialize (Hl eq_refl); discriminate |]. eexists. split; [reflexivity|]. split; [|split; [|discriminate]].
    + destruct r; rk; rewrite ?upd_same; cbn; try lia. destruct (lookup h (map_ s)); rk; rewrite upd_same; cbn; lia.
    + intros u N. destruct r; rk; try (rewrite upd_other; auto; fail). destruct (lookup h (map_ s)); rk; rewrite upd_other; auto.
  - pose proof (i_pc _ _ _ I t) as P. rewrite E in P. destruct P as [_ P].
    eexists. split; [reflexivity|]. split; [|split].
    + destruct r; rk; rewrite ?upd_same; cbn; try lia. destruct (lookup h (map_ s)); rk; rewrite upd_same; cbn; lia.
    + intros u N. destruct r; rk; try (rewrite upd_other; auto; fail). destruct (lookup h (map_ s)); rk; rewrite upd_other; auto.
    + intros _. left. destruct r; rk; rewrite ?upd_same; try discriminate; auto. destruct (lookup h (map_ s)); rk; rewrite upd_same; auto.
  - destruct k; eexists; (split; [reflexivity|]); rk; rewrite upd_same; cbn; (split; [lia|]); (split; [intros u N; rewrite upd_other; auto | auto]).
  - destruct k; eexists; (split; [reflexivity|]); rk; rewrite upd_same; cbn; (split; [lia|]); (split; [intros u N; rewrite upd_other; auto | auto]).
  - destruct k; eexists; (split; [reflexivity|]); rk; rewrite upd_same; cbn; (split; [lia|]); (split; [intros u N; rewrite upd_other; auto | auto]).
  - destruct k; eexists; (split; [reflexivity|]); rk; rewrite upd_same; cbn; (split; [lia|]); (split; [intros u N; rewrite upd_other; auto | auto; try discriminate]).
  - destruct k; eexists; (split; [reflexivity|]); rk; rewrite upd_same; cbn; (split; [lia|]); (split; [intros u N; rewrite upd_other; auto | auto; try discriminate]).
  - destruct k; eexists; (split; [reflexivity|]); rk; rewrite upd_same; cbn; (split; [lia|]); (split; [intros u N; rewrite upd_other; auto | auto; try discriminate]).
Qed.

Lemma run_app k xs ys s : run k s (xs ++ ys) = match run k s xs with Some s' => run k s' ys | None => None end.
Proof. revert s. induction xs as [|x xs IH]; intros s; cbn; auto. destruct (step k s x); auto. Qed.

(** A thread inside the lock (or any Kotlin thread) finishes by itself. *)
Lemma inside_finishes k t : forall m n s, Inv k n s -> rank (pcs s t) <= m ->
  (k = Kotlin -> n + Z.of_nat m < 2 ^ 63)%Z -> (k = Locked -> crit (pcs s t) = true \/ lock s = None /\ pcs s t = Idle) ->
  exists xs s' n', only_go xs /\ length xs <= m /\ run k s xs = Some s' /\ Inv k n' s' /\ pcs s' t = Idle /\
    (forall u, u <> t -> pcs s' u = pcs s u) /\ (k = Locked -> lock s' = None).
Proof.
  induction m as [|m IH]; intros n s I Hr B C.
  - assert (E : pcs s t = Idle) by (destruct (pcs s t); cbn in Hr; try lia; auto).
    exists [], s, n. split; [constructor|]. split; [cbn; lia|]. do 4 (split; [now auto|]). intros Hk. destruct (C Hk) as [X|[X _]]; auto. rewrite E in X. discriminate.
  - destruct (match pcs s t with Idle => true | _ => false end) eqn:Ei.
    { assert (E : pcs s t = Idle) by (destruct (pcs s t); try discriminate; auto).
      exists [], s, n. split; [constructor|]. split; [cbn; lia|]. do 4 (split; [now auto|]). intros Hk. destruct (C Hk) as [X|[X _]]; auto. rewrite E in X. discriminate. }
    destruct (inside_go k n s t I) as (s1 & E & R & O & L).
    + intros _ X. rewrite X in Ei. discriminate.
    + intros Hk. destruct (C Hk) as [X|[_ X]]; auto. rewrite X in Ei. discriminate.
    + assert (B' : k = Kotlin -> (n < 2 ^ 63)%Z) by (intros e; specialize (B e); lia).
      destruct (Inv_step _ _ _ _ _ B' I E) as (n1 & Hn & I1).
      destruct (IH n1 s1 I1) as (xs & s' & n' & X1 & X2 & X3 & X4 & X5 & X6 & X7).
      * lia.
      * intros e. specialize (B e). lia.
      * intros Hk. destruct (L Hk) as [Q|Q]; auto. right. split; auto.
        destruct (crit (pcs s1 t)) eqn:Cr; [rewrite (i_crit _ _ _ I1 t Hk Cr) in Q; discriminate|].
        destruct (pcs s1 t) eqn:E1; cbn in Cr; try discriminate; auto.
        exfalso. cbn in R. destruct (pcs s t) eqn:E0; cbn in R; try lia.
      * exists (Go t :: xs), s', n'. split; [constructor; auto|]. split; [cbn; lia|]. split; [cbn [run]; rewrite E; auto|].
        do 2 (split; [now auto|]). split; [|now auto]. intros u N. rewrite X6, O; auto.
Qed.

Lemma can_finish k n s t : Inv k n s -> (k = Kotlin -> n + 12 < 2 ^ 63)%Z ->
  exists xs s', only_go xs /\ run k s xs = Some s' /\ pcs s' t = Idle.
Proof.
  intros I B. assert (R6 : forall p, rank p <= 6) by (destruct p; cbn; lia).
  assert (Fin : forall s n, Inv k n s -> (k = Kotlin -> n + 6 < 2 ^ 63)%Z -> (k = Locked -> crit (pcs s t) = true \/ lock s = None /\ pcs s t = Idle) ->
    exists xs s', only_go xs /\ run k s xs = Some s' /\ pcs s' t = Idle).
  { clear s n I B. intros s n I B C. destruct (inside_finishes k t 6 n s I (R6 _) B C) as (xs & s' & n' & X1 & X2 & X3 & X4 & X5 & _). eauto. }
  destruct k; [|apply (Fin s n I); [intros e; specialize (B e); lia | discriminate]].
  (* Locked *)
  destruct (crit (pcs s t)) eqn:Cr; [apply (Fin s n I); [discriminate | auto]|].
  destruct (match pcs s t with Idle => true | _ => false end) eqn:Ei.
  { exists [], s. split; [constructor|]. split; auto. destruct (pcs s t); try discriminate; auto. }
  assert (exists r, pcs s t = Want r) as (r & E) by (destruct (pcs s t); try discriminate; eauto).
  (* let the holder finish first *)
  assert (X : exists xs s1 n1, only_go xs /\ run Locked s xs = Some s1 /\ Inv Locked n1 s1 /\ pcs s1 t = Want r /\ lock s1 = None).
  { destruct (lock s) as [u|] eqn:L.
    - assert (Cu := i_lock _ _ _ I u eq_refl L).
      destruct (inside_finishes Locked u 6 n s I (R6 _)) as (xs & s1 & n1 & X1 & X2 & X3 & X4 & X5 & X6 & X7); [discriminate | auto |].
      exists xs, s1, n1. split; auto. split; auto. split; auto. split; auto. rewrite X6; auto. intros ->. congruence.
    - exists [], s, n. split; [constructor|]. auto. }
  destruct X as (xs & s1 & n1 & X1 & X2 & I1 & E1 & L1).
  destruct (needs_lock r) eqn:N.
  - set (s2 := goto t (Inside r) (set_lock (Some t) s1)).
    assert (S2 : step Locked s1 (Go t) = Some s2) by (cbn; rewrite E1, N, L1; auto).
    destruct (Inv_step Locked n1 s1 (Go t) s2 ltac:(discriminate) I1 S2) as (n2 & _ & I2).
    destruct (Fin s2 n2 I2) as (ys & s' & Y1 & Y2 & Y3); [discriminate | intros _; left; unfold s2; rk; rewrite upd_same; auto |].
    exists (xs ++ Go t :: ys), s'. split; [|split; auto].
    + apply Forall_app. split; auto.
    + rewrite run_app, X2. cbn [run]. rewrite S2. auto.
  - exists (xs ++ [Go t]), (body t r Idle Idle s1). split; [|split].
    + apply Forall_app. split; auto.
    + rewrite run_app, X2. cbn [run step]. rewrite E1, N. auto.
    + destruct r; try discriminate. rk. apply upd_same.
Qed.

(** No deadlock: every call in progress can run to its end without further
    calls (with Kotlin's counter not exhausted). *)
Lemma calls_finish k xs s t : run k init xs = Some s -> (k = Kotlin -> Z.of_nat (length xs) < 2 ^ 62)%Z ->
  exists ys s', only_go ys /\ run k s ys = Some s' /\ pcs s' t = Idle.
Proof.
  intros H B.
  assert (X : exists n, Inv k n s /\ (k = Kotlin -> n <= Z.of_nat (length xs))%Z).
  { assert (G : forall xs n s s', Inv k n s -> (k = Kotlin -> n + Z.of_nat (length xs) < 2 ^ 63)%Z -> run k s xs = Some s' ->
        exists n', Inv k n' s' /\ (k = Kotlin -> n' <= n + Z.of_nat (length xs))%Z).
    { clear. induction xs as [|x xs IH]; intros n s s' I B H; cbn [run] in H.
      - injection H as <-. exists n. split; auto. cbn. lia.
      - destruct (step k s x) as [s1|] eqn:E; [|discriminate]. cbn [length] in B.
        assert (B' : k = Kotlin -> (n < 2 ^ 63)%Z) by (intros e; specialize (B e); lia).
        destruct (Inv_step _ _ _ _ _ B' I E) as (n1 & Hn & I1).
        assert (B2 : k = Kotlin -> (n1 + Z.of_nat (length xs) < 2 ^ 63)%Z) by (intros e; specialize (B e); lia).
        destruct (IH _ _ _ I1 B2 H) as (n' & I' & Q).
        exists n'. split; auto. intros e. specialize (Q e). cbn [length]. lia. }
    destruct (G xs 0%Z init s (Inv_init k)) as (n' & I' & Q); [ |exact H|].
    - intros e. specialize (B e). change (2 ^ 62)%Z with 4611686018427387904%Z in B. change (2 ^ 63)%Z with 9223372036854775808%Z. lia.
    - exists n'. split; auto. }
  destruct X as (n & I & Q). eapply can_finish; eauto.
  intros e. specialize (B e). specialize (Q e). change (2 ^ 62)%Z with 4611686018427387904%Z in B. change (2 ^ 63)%Z with 9223372036854775808%Z. lia.
Qed.
