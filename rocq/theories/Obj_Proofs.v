(** * Heap invariant for objects crossing the FFI *)

From Coq Require Import Sorting.Permutation.
From Verif Require Import Base Obj_Model Obj_Spec.

(** ** Association lists *)

Section Assoc.
  Context {A : Type}.
  Implicit Types (l : list (Z * A)).

  Lemma lookup_in a x l : lookup a l = Some x -> In (a, x) l.
  Proof.
    induction l as [|[b y] l IH]; cbn; [discriminate|]. destruct (Z.eqb_spec a b) as [->|]; intros H.
    - injection H as ->. auto.
    - right. auto.
  Qed.

  Lemma lookup_none a l : lookup a l = None <-> ~ In a (map fst l).
  Proof.
    induction l as [|[b y] l IH]; cbn; [tauto|]. destruct (Z.eqb_spec a b) as [->|N].
    - split; [discriminate|]. intros H. exfalso. auto.
    - rewrite IH. split; intros H; [intros [X|X]; auto | intros X; apply H; auto].
  Qed.

  Lemma lookup_some a l : In a (map fst l) -> exists x, lookup a l = Some x.
  Proof.
    intros H. destruct (lookup a l) eqn:E; [eauto|]. apply lookup_none in E. contradiction.
  Qed.

  Lemma del_other a b l : a <> b -> lookup b (del a l) = lookup b l.
  Proof.
    intros N. induction l as [|[c y] l IH]; cbn; [reflexivity|].
    destruct (Z.eqb_spec a c) as [<-|].
    - destruct (Z.eqb_spec b a); [congruence|reflexivity].
    - cbn. destruct (Z.eqb b c); auto.
  Qed.

  Lemma del_incl a l : incl (map fst (del a l)) (map fst l).
  Proof.
    induction l as [|[c y] l IH]; cbn; [apply incl_refl|]. destruct (Z.eqb a c).
    - apply incl_tl, incl_refl.
    - cbn. intros x [<-|H]; [left; auto | right; auto].
  Qed.

  Lemma del_nodup a l : NoDup (map fst l) -> NoDup (map fst (del a l)).
  Proof.
    induction l as [|[c y] l IH]; cbn; intros H; [constructor|]. inversion_clear H.
    destruct (Z.eqb a c); auto. cbn. constructor; auto. intros X. apply H0. eapply del_incl; eauto.
  Qed.

  Lemma del_same a l : NoDup (map fst l) -> lookup a (del a l) = None.
  Proof.
    induction l as [|[c y] l IH]; cbn; intros H; [reflexivity|]. inversion_clear H.
    destruct (Z.eqb_spec a c) as [->|N].
    - apply lookup_none. auto.
    - cbn. destruct (Z.eqb_spec a c); [congruence|]. auto.
  Qed.
End Assoc.

Lemma setn_other a n b l : a <> b -> lookup b (setn a n l) = lookup b l.
Proof.
  intros N. induction l as [|[c [y m]] l IH]; cbn; [reflexivity|].
  destruct (Z.eqb_spec a c) as [<-|]; cbn.
  - destruct (Z.eqb_spec b a); [congruence|reflexivity].
  - destruct (Z.eqb b c); auto.
Qed.

Lemma setn_same a n l c m : lookup a l = Some (c, m) -> lookup a (setn a n l) = Some (c, n).
Proof.
  induction l as [|[b [y k]] l IH]; cbn; [discriminate|].
  destruct (Z.eqb_spec a b) as [->|N]; cbn.
  - rewrite Z.eqb_refl. congruence.
  - destruct (Z.eqb_spec a b); [congruence|]. auto.
Qed.

Lemma setn_keys a n l : map fst (setn a n l) = map fst l.
Proof. induction l as [|[b [y k]] l IH]; cbn; [reflexivity|]. destruct (Z.eqb a b); cbn; congruence. Qed.

Definition sumc (f : content -> nat) (l : heap) : nat := fold_right (fun x n => f (fst (snd x)) + n) 0 l.

Lemma sumc_cons f a c n l : sumc f ((a, (c, n)) :: l) = f c + sumc f l.
Proof. reflexivity. Qed.

Lemma sumc_setn f a n l : sumc f (setn a n l) = sumc f l.
Proof.
  induction l as [|[b [c m]] l IH]; [reflexivity|]. cbn [setn].
  destruct (Z.eqb a b); rewrite !sumc_cons; auto.
Qed.

Lemma sumc_del f a l c n : lookup a l = Some (c, n) -> sumc f l = f c + sumc f (del a l).
Proof.
  induction l as [|[b [y m]] l IH]; cbn [lookup del]; [discriminate|].
  destruct (Z.eqb_spec a b) as [->|N]; intros H.
  - injection H as -> ->. apply sumc_cons.
  - rewrite !sumc_cons, (IH H). lia.
Qed.

Lemma sumc_pos f a l c n : lookup a l = Some (c, n) -> f c <= sumc f l.
Proof. intros H. rewrite (sumc_del f _ _ _ _ H). lia. Qed.

Definition boxes (a : Z) (c : content) : nat := match c with CBox b => b1 (Z.eqb b a) | _ => 0 end.
Definition proxies (h : Z) (c : content) : nat := match c with CProxy k => b1 (Z.eqb k h) | _ => 0 end.
Definition objects (id : Z) (c : content) : nat := match c with CObj i => b1 (Z.eqb i id) | _ => 0 end.

(** ** Claims: what references entitle their holders to *)

Definition claim := (hty * Z * option who)%type.

(** A claim on a handle-map entry rather than on a heap allocation. *)
Definition on_map (t : hty) (h : Z) : bool := match t with TTrait => is_foreign h | TObj => false end.

Definition needs (a : Z) (c : claim) : nat :=
  let '(t, h, _) := c in if on_map t h then 0 else b1 (Z.eqb h a).
Definition tokens (k : Z) (c : claim) : nat :=
  let '(t, h, _) := c in if on_map t h then b1 (Z.eqb h k) else 0.

Definition sum {A} (f : A -> nat) (l : list A) : nat := fold_right (fun x n => f x + n) 0 l.

Lemma sum_cons {A} (f : A -> nat) x l : sum f (x :: l) = f x + sum f l.
Proof. reflexivity. Qed.

Lemma sum_app {A} (f : A -> nat) a b : sum f (a ++ b) = sum f a + sum f b.
Proof. induction a; cbn [app]; rewrite ?sum_cons; [reflexivity | lia]. Qed.

Lemma sum_perm {A} (f : A -> nat) l l' : Permutation l l' -> sum f l = sum f l'.
Proof. induction 1; rewrite ?sum_cons; try lia; try congruence. Qed.

Lemma sum_in {A} (f : A -> nat) l x : In x l -> f x <= sum f l.
Proof. induction l; cbn [In]; [easy|]. rewrite sum_cons. intros [->|H]; [lia|]. apply IHl in H. lia. Qed.

Definition holds (H : heap) (M : fmap) (c : claim) : Prop :=
  let '(t, h, w) := c in
  match w with
  | Some w => den_handle H M t h = Some w
  | None => exists w, den_handle H M t h = Some w
  end.

Definition is_box (c : content) : bool := match c with CBox _ => true | _ => false end.

Record Inv (H : heap) (M : fmap) (nx : Z) (C : list claim) : Prop := {
  i_keys : NoDup (map fst H);
  i_count : forall a c n, lookup a H = Some (c, n) ->
    Z.even a = true /\ a <> 0%Z /\ 1 <= n /\ n = sum (needs a) C + sumc (boxes a) H;
  i_none : forall a, lookup a H = None -> sum (needs a) C + sumc (boxes a) H = 0;
  i_box : forall a b n, lookup a H = Some (CBox b, n) ->
    exists c m, lookup b H = Some (c, m) /\ is_box c = false;
  i_map : forall h, sumc (proxies h) H + sum (tokens h) C
    = match lookup h M with Some _ => 1 | None => 0 end;
  i_mkeys : NoDup (map fst M);
  i_fresh : forall h, In h (map fst M) -> (0 < h < nx)%Z /\ Z.odd h = true;
  i_next : (0 < nx)%Z /\ Z.odd nx = true;
  i_claims : Forall (holds H M) C }.

Lemma Inv_perm H M nx C C' : Permutation C C' -> Inv H M nx C -> Inv H M nx C'.
Proof.
  intros P [I1 I2 I3 I4 I5 I6 I7 I8 I9]. constructor; auto.
  - intros a c n E. rewrite <- (sum_perm _ _ _ P). eauto.
  - intros a E. rewrite <- (sum_perm _ _ _ P). eauto.
  - intros h. rewrite <- (sum_perm _ _ _ P). eauto.
  - eapply Permutation_Forall; eauto.
Qed.

Lemma Inv_init : Inv [] [] 1 [].
Proof. constructor; cbn; auto; try constructor; try discriminate; try lia; try easy. Qed.

(** A claim may forget whom it denotes. *)
Lemma Inv_forget H M nx t h w C : Inv H M nx ((t, h, w) :: C) -> Inv H M nx ((t, h, None) :: C).
Proof.
  intros [I1 I2 I3 I4 I5 I6 I7 I8 I9]. constructor; auto.
  inversion_clear I9. constructor; auto. cbn in *. destruct w; eauto.
Qed.

(** ** Stability of what is denoted *)

Definition agree (H H' : heap) (M M' : fmap) : Prop :=
  (forall x c n c' n', lookup x H = Some (c, n) -> lookup x H' = Some (c', n') -> c = c') /\
  (forall h i i', lookup h M = Some i -> lookup h M' = Some i' -> i = i').

(** Enough of [Inv] to know that live things stay alive. *)
Lemma stable H M H' M' C t h w :
  (forall a, lookup a H' = None -> sum (needs a) C + sumc (boxes a) H' = 0) ->
  (forall a b n, lookup a H' = Some (CBox b, n) -> exists c m, lookup b H' = Some (c, m) /\ is_box c = false) ->
  (forall h, sumc (proxies h) H' + sum (tokens h) C = match lookup h M' with Some _ => 1 | None => 0 end) ->
  agree H H' M M' -> In (t, h, w) C -> holds H M (t, h, w) -> holds H' M' (t, h, w).
Proof.
  intros N B P [A1 A2] I X.
  assert (G : forall g, den_handle H M t h = Some g -> den_handle H' M' t h = Some g).
  { assert (D : forall a g c n, lookup a H' = Some (c, n) -> den H M a = Some g -> den H' M' a = Some g).
    { intros a g c n E D. unfold den in *. rewrite E. destruct (lookup a H) as [[c0 n0]|] eqn:E0; [|discriminate].
      pose proof (A1 _ _ _ _ _ E0 E) as ->. destruct c; auto.
      pose proof (P h0) as Q. pose proof (sumc_pos (proxies h0) _ _ _ _ E) as Q2. cbn in Q2. rewrite Z.eqb_refl in Q2. cbn in Q2.
      destruct (lookup h0 M') as [i'|] eqn:E1; [|lia]. destruct (lookup h0 M) as [i|] eqn:E2; [|discriminate].
      rewrite <- (A2 _ _ _ E2 E1). auto. }
    assert (L : on_map t h = false -> exists c n, lookup h H' = Some (c, n)).
    { intros O. destruct (lookup h H') as [[c n]|] eqn:E; [eauto|]. apply N in E.
      pose proof (sum_in (needs h) _ _ I) as Q. cbn in Q. rewrite O, Z.eqb_refl in Q. cbn in Q. lia. }
    intros g. destruct t; cbn [den_handle].
    - destruct (L eq_refl) as (c & n & E). eapply D; eauto.
    - cbn in L. destruct (is_foreign h) eqn:F.
      + pose proof (P h) as Q. pose proof (sum_in (tokens h) _ _ I) as Q2. cbn in Q2. rewrite F, Z.eqb_refl in Q2. cbn in Q2.
        destruct (lookup h M') as [i'|] eqn:E1; [|lia]. destruct (lookup h M) as [i|] eqn:E2; [|discriminate].
        rewrite <- (A2 _ _ _ E2 E1). auto.
      + destruct (L eq_refl) as (c & n & E). rewrite E. destruct (lookup h H) as [[c0 n0]|] eqn:E0; [|discriminate].
        pose proof (A1 _ _ _ _ _ E0 E) as ->. destruct c; try discriminate.
        destruct (B _ _ _ E) as (c1 & m & E1 & _). eapply D; eauto. }
  cbn in *. destruct w as [w|]; auto. destruct X as (g & X). eauto.
Qed.

(** ** Primitive operations *)

Lemma b1_eqb_refl a : b1 (Z.eqb a a) = 1. Proof. rewrite Z.eqb_refl. reflexivity. Qed.

Lemma odd_even a : Z.odd a = true -> Z.even a = true -> False.
Proof. intros H1 H2. rewrite <- Z.negb_even in H1. rewrite H2 in H1. discriminate. Qed.

(** One reference more. *)
Lemma Inv_inc H M nx C t a w c n :
  Inv H M nx C -> on_map t a = false -> lookup a H = Some (c, n) -> holds H M (t, a, w) ->
  Inv (setn a (S n) H) M nx ((t, a, w) :: C).
Proof.
  intros [I1 I2 I3 I4 I5 I6 I7 I8 I9] O E X.
  assert (S1 : forall b c' n', lookup b (setn a (S n) H) = Some (c', n') -> exists m, lookup b H = Some (c', m) /\
     n' = m + b1 (Z.eqb a b)).
  { intros b c' n' L. destruct (Z.eqb_spec a b) as [<-|N].
    - rewrite (setn_same _ _ _ _ _ E) in L. injection L as <- <-. exists n. cbn. split; auto. lia.
    - rewrite setn_other in L by auto. exists n'. cbn. split; auto. }
  assert (S2 : forall b, lookup b (setn a (S n) H) = None -> lookup b H = None /\ a <> b).
  { intros b L. destruct (Z.eqb_spec a b) as [<-|N].
    - rewrite (setn_same _ _ _ _ _ E) in L. discriminate.
    - rewrite setn_other in L by auto. auto. }
  assert (S3 : forall b c' m, lookup b H = Some (c', m) -> exists m', lookup b (setn a (S n) H) = Some (c', m')).
  { intros b c' m L. destruct (Z.eqb_spec a b) as [<-|N].
    - rewrite E in L. injection L as <- <-. rewrite (setn_same _ _ _ _ _ E). eauto.
    - rewrite setn_other by auto. eauto. }
  assert (D : forall b, sum (needs b) ((t, a, w) :: C) = b1 (Z.eqb a b) + sum (needs b) C).
  { intros b. rewrite sum_cons. cbn [needs]. rewrite O. reflexivity. }
  assert (I3' : forall b, lookup b (setn a (S n) H) = None -> sum (needs b) ((t, a, w) :: C) + sumc (boxes b) (setn a (S n) H) = 0).
  { intros b L. rewrite D, sumc_setn. destruct (S2 _ L) as (L1 & L2). specialize (I3 _ L1).
    destruct (Z.eqb_spec a b); [congruence|]. cbn. lia. }
  assert (I4' : forall b d m, lookup b (setn a (S n) H) = Some (CBox d, m) -> exists c' m', lookup d (setn a (S n) H) = Some (c', m') /\ is_box c' = false).
  { intros b d m L. destruct (S1 _ _ _ L) as (m0 & L0 & _). destruct (I4 _ _ _ L0) as (c' & m' & L1 & L2).
    destruct (S3 _ _ _ L1) as (m2 & L3). eauto. }
  assert (I5' : forall h, sumc (proxies h) (setn a (S n) H) + sum (tokens h) ((t, a, w) :: C) = match lookup h M with Some _ => 1 | None => 0 end).
  { intros h. rewrite sumc_setn, sum_cons. cbn [tokens]. rewrite O. apply I5. }
  constructor; auto.
  - rewrite setn_keys. auto.
  - intros b c' m L. rewrite D, sumc_setn. destruct (S1 _ _ _ L) as (m0 & L0 & ->).
    destruct (I2 _ _ _ L0) as (? & ? & ? & ->). repeat split; auto; lia.
  - assert (AG : agree H (setn a (S n) H) M M).
    { split; [|congruence]. intros x c1 n1 c2 n2 L1 L2. destruct (S1 _ _ _ L2) as (m & L3 & _). congruence. }
    apply Forall_forall. intros [[t' h'] w'] Hin. eapply (stable H M); eauto.
    destruct Hin as [Hin|Hin]; [injection Hin as <- <- <-; auto|].
    eapply Forall_forall in I9; eauto.
Qed.

(** A fresh allocation whose content takes over the claims [D]. *)
Lemma Inv_alloc H M nx C a c cl t w :
  Inv H M nx (cl ++ C) -> can_alloc a H = true -> on_map t a = false ->
  (forall b, sum (needs b) cl = boxes b c) -> (forall h, sum (tokens h) cl = proxies h c) ->
  (forall b, c = CBox b -> exists c' m, lookup b H = Some (c', m) /\ is_box c' = false) ->
  holds ((a, (c, 1)) :: H) M (t, a, w) ->
  Inv ((a, (c, 1)) :: H) M nx ((t, a, w) :: C).
Proof.
  intros [I1 I2 I3 I4 I5 I6 I7 I8 I9] A O N T Bx X.
  unfold can_alloc in A. apply andb_true_iff in A as [A A3]. apply andb_true_iff in A as [A1 A2].
  destruct (lookup a H) eqn:Ea; [discriminate|]. clear A3.
  assert (Sn : forall f, sum f (cl ++ C) = sum f cl + sum f C).
  { intros f. apply sum_app. }
  assert (Z0 : sum (needs a) C = 0 /\ sumc (boxes a) H = 0 /\ sum (needs a) cl = 0).
  { pose proof (I3 _ Ea) as Q. rewrite Sn in Q. lia. }
  assert (D : forall b, sum (needs b) ((t, a, w) :: C) = b1 (Z.eqb a b) + sum (needs b) C).
  { intros b. rewrite sum_cons. cbn [needs]. rewrite O. reflexivity. }
  assert (Lk : forall b c' n', lookup b ((a, (c, 1)) :: H) = Some (c', n') ->
     (b = a /\ c' = c /\ n' = 1) \/ (b <> a /\ lookup b H = Some (c', n'))).
  { intros b c' n' L. cbn in L. destruct (Z.eqb_spec b a) as [->|]; [left|right]; [injection L as <- <-; auto | auto]. }
  assert (I3' : forall b, lookup b ((a, (c, 1)) :: H) = None -> sum (needs b) ((t, a, w) :: C) + sumc (boxes b) ((a, (c, 1)) :: H) = 0).
  { intros b L. cbn in L. destruct (Z.eqb_spec b a) as [Eq|Ne]; [discriminate|].
    rewrite D, sumc_cons. specialize (I3 _ L). rewrite Sn, N in I3.
    destruct (Z.eqb_spec a b); [congruence|]. cbn. lia. }
  assert (I4' : forall x b n, lookup x ((a, (c, 1)) :: H) = Some (CBox b, n) -> exists c' m, lookup b ((a, (c, 1)) :: H) = Some (c', m) /\ is_box c' = false).
  { intros x b n L. assert (exists c' m, lookup b H = Some (c', m) /\ is_box c' = false) as (c' & m & L1 & L2).
    { destruct (Lk _ _ _ L) as [(-> & <- & _)|(_ & L0)]; eauto. }
    exists c', m. cbn. destruct (Z.eqb_spec b a) as [->|]; [congruence|]. auto. }
  assert (I5' : forall h, sumc (proxies h) ((a, (c, 1)) :: H) + sum (tokens h) ((t, a, w) :: C) = match lookup h M with Some _ => 1 | None => 0 end).
  { intros h. rewrite sumc_cons, sum_cons. cbn [tokens]. rewrite O. rewrite <- I5, Sn, T. lia. }
  constructor; auto.
  - cbn. constructor; auto. apply lookup_none. auto.
  - intros b c' n L. rewrite D, sumc_cons. destruct (Lk _ _ _ L) as [(-> & -> & ->)|(Ne & L0)].
    + rewrite <- N. rewrite b1_eqb_refl. repeat split; auto; [|lia].
      destruct (Z.eqb_spec a 0); [discriminate|auto].
    + destruct (I2 _ _ _ L0) as (? & ? & ? & ->). rewrite Sn, N in *. destruct (Z.eqb_spec a b); [congruence|].
      cbn. repeat split; auto; lia.
  - assert (AG : agree H ((a, (c, 1)) :: H) M M).
    { split; [|congruence]. intros x c1 n1 c2 n2 L1 L2. destruct (Lk _ _ _ L2) as [(-> & _)|(_ & L0)]; congruence. }
    apply Forall_app in I9 as [_ I9].
    constructor; auto.
    apply Forall_forall. intros [[t' h'] w'] Hin. eapply (stable H M); eauto; [right; auto|].
    eapply Forall_forall in I9; eauto.
Qed.

(** A fresh handle-map entry. *)
Lemma Inv_insert H M nx C id :
  Inv H M nx C -> Inv H ((nx, id) :: M) (nx + 2) ((TTrait, nx, Some (Foreign id)) :: C).
Proof.
  intros [I1 I2 I3 I4 I5 I6 I7 [I8 I8'] I9].
  assert (O : on_map TTrait nx = true) by (cbn; auto).
  assert (F : lookup nx M = None). { apply lookup_none. intros X. apply I7 in X. lia. }
  assert (I3' : forall b, lookup b H = None -> sum (needs b) ((TTrait, nx, Some (Foreign id)) :: C) + sumc (boxes b) H = 0).
  { intros b L. rewrite sum_cons. cbn [needs]. rewrite O. apply I3; auto. }
  assert (I5' : forall h, sumc (proxies h) H + sum (tokens h) ((TTrait, nx, Some (Foreign id)) :: C) = match lookup h ((nx, id) :: M) with Some _ => 1 | None => 0 end).
  { intros h. rewrite sum_cons. cbn [tokens]. rewrite O. specialize (I5 h). cbn [lookup].
    destruct (Z.eqb_spec h nx) as [->|Ne].
    - rewrite F in I5. rewrite b1_eqb_refl. lia.
    - destruct (Z.eqb_spec nx h); [congruence|]. cbn. lia. }
  constructor; auto.
  - intros b c n L. rewrite sum_cons. cbn [needs]. rewrite O. exact (I2 _ _ _ L).
  - cbn. constructor; auto. apply lookup_none. auto.
  - intros h [<-|X]; [cbn [fst]; split; [lia|auto]|]. apply I7 in X. split; [lia|tauto].
  - split; [lia|]. rewrite Z.odd_add, I8'. reflexivity.
  - constructor.
    + cbn. change (is_foreign nx) with (Z.odd nx). rewrite I8', Z.eqb_refl. reflexivity.
    + apply Forall_forall. intros [[t' h'] w'] Hin. eapply (stable H M); eauto; [|right; eauto|].
      * split; [congruence|]. intros h i i' L1 L2. cbn in L2. destruct (Z.eqb_spec h nx) as [->|]; congruence.
      * eapply Forall_forall in I9; eauto.
Qed.

(** Removing a handle-map entry somebody holds a token for. *)
Lemma Inv_remove H M nx C h w :
  Inv H M nx ((TTrait, h, w) :: C) -> is_foreign h = true -> Inv H (del h M) nx C.
Proof.
  intros [I1 I2 I3 I4 I5 I6 I7 I8 I9] F.
  assert (I3' : forall b, lookup b H = None -> sum (needs b) C + sumc (boxes b) H = 0).
  { intros b L. specialize (I3 _ L). rewrite sum_cons in I3. cbn [needs on_map] in I3. rewrite F in I3. auto. }
  assert (I5' : forall k, sumc (proxies k) H + sum (tokens k) C = match lookup k (del h M) with Some _ => 1 | None => 0 end).
  { intros k. specialize (I5 k). rewrite sum_cons in I5. cbn [tokens on_map] in I5. rewrite F in I5.
    destruct (Z.eqb_spec h k) as [Eq|Ne].
    - subst k. rewrite del_same by auto. cbn in I5. destruct (lookup h M); lia.
    - rewrite del_other by auto. cbn in I5. lia. }
  inversion_clear I9 as [|? ? _ I9']. constructor; auto.
  - intros b c n L. specialize (I2 _ _ _ L). rewrite sum_cons in I2. cbn [needs on_map] in I2. rewrite F in I2. auto.
  - apply del_nodup. auto.
  - intros k X. apply I7. eapply del_incl; eauto.
  - apply Forall_forall. intros [[t' h'] w'] Hin. eapply (stable H M); eauto.
    + split; [congruence|]. intros k i i' L1 L2. destruct (Z.eqb_spec h k) as [<-|Ne].
      * rewrite del_same in L2 by auto. discriminate.
      * rewrite del_other in L2 by auto. congruence.
    + eapply Forall_forall in I9'; eauto.
Qed.
