(** * The Kotlin object protocol is safe as long as the object is not passed as an argument *)

From Verif Require Import Base Kobj_Model Kobj_Spec.

Definition sum (f : pc -> nat) (l : list pc) : nat := fold_right (fun p n => f p + n) 0 l.

Lemma sum_cons f p l : sum f (p :: l) = f p + sum f l.
Proof. reflexivity. Qed.

Lemma sum_set f : forall l t p q, nth_error l t = Some q -> sum f (set_nth t p l) + f q = sum f l + f p.
Proof.
  induction l as [|x l IH]; intros [|t] p q H; cbn [nth_error set_nth] in *; try discriminate.
  - injection H as ->. rewrite !sum_cons. lia.
  - rewrite !sum_cons. specialize (IH _ p _ H). lia.
Qed.

Lemma sum_in f l p : In p l -> f p <= sum f l.
Proof. induction l; cbn [In]; [easy|]. rewrite sum_cons. intros [->|H]; [lia|]. specialize (IHl H). lia. Qed.

Lemma sum_zero f l : (forall p, In p l -> f p = 0) -> sum f l = 0.
Proof. induction l; intros H; [reflexivity|]. rewrite sum_cons, H, IHl; cbn; auto. intros; apply H; cbn; auto. Qed.

Lemma sum_le f g l : (forall p, f p <= g p) -> sum f l <= sum g l.
Proof. intros H. induction l; [auto|]. rewrite !sum_cons. specialize (H a). lia. Qed.

Lemma in_set : forall l t p x, In x (set_nth t p l) -> x = p \/ In x l.
Proof.
  induction l as [|y l IH]; intros [|t] p x H; cbn in *; auto.
  - destruct H; auto.
  - destruct H as [H|H]; auto. apply IH in H. tauto.
Qed.

Definition hold (p : pc) : nat := match p with C2 | C3 | C4 | C5 | D1 => 1 | _ => 0 end.
Definition users (p : pc) : nat := match p with C3 | C4 => 1 | _ => 0 end.
Definition cleaning (p : pc) : nat := match p with Clean => 1 | _ => 0 end.
Definition pc_ok (p : pc) : Prop := match p with P1 | P2 | P3 => False | C1 c => (0 < c)%Z | _ => True end.
Definition b1 (b : bool) : nat := if b then 1 else 0.

Definition count (p : event -> bool) (l : list event) : nat := length (filter p l).

(** A history in which nothing follows the drop and the drop meets no user. *)
Fixpoint wo (l : list event) : Prop :=
  match l with
  | [] => True
  | e :: l' =>
      (match e with
       | EDrop => in_use l' = 0%Z /\ count is_drop l' = 0
       | EBad _ => False
       | EClone _ | EUse _ | ERelease _ | EFree => count is_drop l' = 0
       | _ => True
       end) /\ wo l'
  end.

Record Inv (s : st) : Prop := {
  i_counter : counter s = Z.of_nat (b1 (negb (destroyed s)) + sum hold (ths s));
  i_clean : if gone s then cleaned s = true /\ all_idle s
            else if Z.eqb (counter s) 0 then sum cleaning (ths s) + b1 (cleaned s) = 1
            else sum cleaning (ths s) = 0 /\ cleaned s = false;
  i_rc : rc s = b1 (negb (cleaned s)) + sum users (ths s);
  i_use : in_use (log s) = Z.of_nat (sum users (ths s));
  i_pc : forall p, In p (ths s) -> pc_ok p;
  i_drop : count is_drop (log s) = b1 (Nat.eqb (rc s) 0);
  i_wo : wo (log s) }.

Lemma sum_repeat f n : f Idle = 0 -> sum f (repeat Idle n) = 0.
Proof. intros H. induction n; [auto|]. cbn [repeat]. rewrite sum_cons. lia. Qed.

Lemma Inv_init n : Inv (init n).
Proof.
  constructor; cbn -[sum]; rewrite ?sum_repeat by reflexivity; auto.
  intros p H. apply repeat_spec in H. subst. exact I.
Qed.

Lemma using_hold p : users p <= hold p.
Proof. destruct p; cbn; lia. Qed.

Lemma count_cons p e l : count p (e :: l) = b1 (p e) + count p l.
Proof. unfold count. cbn [filter]. destruct (p e); reflexivity. Qed.

Lemma in_use_cons e l : in_use (e :: l) = (Z.of_nat (b1 (is_clone e)) - Z.of_nat (b1 (is_release e)) + in_use l)%Z.
Proof. unfold in_use. change (length (filter ?p ?l)) with (count p l). rewrite !count_cons. lia. Qed.

Ltac fields := cbn [destroyed counter cleaned rc gone ths log goto say set_counter set_destroyed set_cleaned set_gone set_rc] in *.

Lemma pcs_ok s t p : (forall q, In q (ths s) -> pc_ok q) -> pc_ok p -> forall q, In q (set_nth t p (ths s)) -> pc_ok q.
Proof. intros H P q X. apply in_set in X as [->|X]; auto. Qed.

Definition innocent (e : event) : bool := match e with ECall _ _ | EReject _ | EReturn _ => true | _ => false end.

(** Steps that do not touch the Rust object. *)
Lemma Inv_kotlin s t p q d c l :
  Inv s -> nth_error (ths s) t = Some q -> gone s = false -> pc_ok p ->
  users p = users q ->
  c = Z.of_nat (b1 (negb d) + sum hold (set_nth t p (ths s))) ->
  (if Z.eqb c 0 then sum cleaning (set_nth t p (ths s)) + b1 (cleaned s) = 1
   else sum cleaning (set_nth t p (ths s)) = 0 /\ cleaned s = false) ->
  (l = log s \/ exists e, l = e :: log s /\ innocent e = true) ->
  Inv (mk d c (cleaned s) (rc s) (gone s) (set_nth t p (ths s)) l).
Proof.
  intros [I1 I2 I3 I4 I5 I6 I7] E G Pk U Hc Hcl Hl.
  pose proof (sum_set users _ _ p _ E) as Su.
  assert (L : in_use l = in_use (log s) /\ count is_drop l = count is_drop (log s) /\ wo l).
  { destruct Hl as [->|(e & -> & Hi)]; auto. rewrite in_use_cons, count_cons.
    destruct e; try discriminate; cbn [b1 is_clone is_release is_drop wo]; repeat split; auto; lia. }
  destruct L as (L1 & L2 & L3).
  constructor; fields; auto.
  - rewrite G. auto.
  - lia.
  - rewrite L1. lia.
  - eapply pcs_ok; eauto.
  - congruence.
Qed.

Lemma Inv_step s x s' : Inv s -> match x with Call _ Pass => False | _ => True end -> step s x = Some s' -> Inv s'.
Proof.
  intros I Np H. pose proof I as [I1 I2 I3 I4 I5 I6 I7].
  pose proof (sum_le users hold (ths s) using_hold) as Ul.
  destruct x as [t r|t|]; cbn [step] in H.
  - destruct (gone s) eqn:G; [discriminate|]. destruct (nth_error (ths s) t) as [p|] eqn:E; [|discriminate].
    destruct p; try discriminate. injection H as <-. unfold goto, say; fields.
    destruct r; [|destruct Np|]; (refine (Inv_kotlin s t _ _ _ _ _ I E G _ _ _ _ _);
        [try exact Logic.I | reflexivity | | | first [left; reflexivity | right; eexists; split; reflexivity]]).
    + pose proof (sum_set hold _ _ C0 _ E). cbn [hold] in *. lia.
    + pose proof (sum_set cleaning _ _ C0 _ E). cbn [cleaning] in *. destruct (Z.eqb (counter s) 0); lia.
    + pose proof (sum_set hold _ _ D0 _ E). cbn [hold] in *. lia.
    + pose proof (sum_set cleaning _ _ D0 _ E). cbn [cleaning] in *. destruct (Z.eqb (counter s) 0); lia.
  - destruct (nth_error (ths s) t) as [p|] eqn:E; [|discriminate].
    destruct (gone s) eqn:G.
    { destruct I2 as [_ I2]. rewrite (I2 p (nth_error_In _ _ E)) in H. discriminate. }
    assert (Pk : pc_ok p) by (apply I5; eapply nth_error_In; eauto).
    assert (Hp : hold p <= sum hold (ths s)) by (apply sum_in; eapply nth_error_In; eauto).
    assert (Up : users p <= sum users (ths s)) by (apply sum_in; eapply nth_error_In; eauto).
    assert (Cp : cleaning p <= sum cleaning (ths s)) by (apply sum_in; eapply nth_error_In; eauto).
    destruct p as [| |c| | | | | | | | | |]; try discriminate; try (destruct Pk; fail); cbn [hold users cleaning pc_ok] in *.
    + (* C0 *)
      destruct (Z.eqb_spec (counter s) 0) as [Z0|Z0]; [|destruct (Z.eqb_spec (counter s) max_value) as [Zm|Zm]];
        injection H as <-; unfold goto, say; fields;
        (refine (Inv_kotlin s t _ _ _ _ _ I E G _ _ _ _ _);
        [try exact Logic.I | reflexivity | | | first [left; reflexivity | right; eexists; split; reflexivity]]).
      * pose proof (sum_set hold _ _ Idle _ E). cbn [hold] in *. lia.
      * pose proof (sum_set cleaning _ _ Idle _ E). cbn [cleaning] in *. rewrite (proj2 (Z.eqb_eq _ _) Z0). lia.
      * pose proof (sum_set hold _ _ Idle _ E). cbn [hold] in *. lia.
      * pose proof (sum_set cleaning _ _ Idle _ E). cbn [cleaning] in *. rewrite (proj2 (Z.eqb_neq _ _) Z0). lia.
      * cbn. lia.
      * pose proof (sum_set hold _ _ (C1 (counter s)) _ E). cbn [hold] in *. lia.
      * pose proof (sum_set cleaning _ _ (C1 (counter s)) _ E). cbn [cleaning] in *. rewrite (proj2 (Z.eqb_neq _ _) Z0). lia.
    + (* C1 *)
      destruct (Z.eqb_spec (counter s) c) as [Zc|Zc]; injection H as <-; unfold goto, set_counter; fields;
        (refine (Inv_kotlin s t _ _ _ _ _ I E G _ _ _ _ _);
        [try exact Logic.I | reflexivity | | | first [left; reflexivity | right; eexists; split; reflexivity]]).
      * pose proof (sum_set hold _ _ C2 _ E). cbn [hold] in *. lia.
      * pose proof (sum_set cleaning _ _ C2 _ E). cbn [cleaning] in *.
        destruct (Z.eqb_spec (counter s) 0); [lia|]. destruct (Z.eqb_spec (c + 1) 0); [lia|]. lia.
      * pose proof (sum_set hold _ _ C0 _ E). cbn [hold] in *. lia.
      * pose proof (sum_set cleaning _ _ C0 _ E). cbn [cleaning] in *. destruct (Z.eqb (counter s) 0); lia.
    + (* C2: the clone *)
      destruct (Z.eqb_spec (counter s) 0); [lia|]. destruct I2 as [I2 I2'].
      assert (R : exists n, rc s = S n) by (rewrite I2' in I3; cbn in I3; exists (sum users (ths s)); lia). destruct R as (n' & R).
      unfold rust_clone in H. rewrite R in H. injection H as <-. unfold goto, say, set_rc; fields.
      pose proof (sum_set hold _ _ C3 _ E) as Q1. pose proof (sum_set users _ _ C3 _ E) as Q2. pose proof (sum_set cleaning _ _ C3 _ E) as Q3.
      cbn [hold users cleaning] in *. constructor; fields.
      * lia.
      * rewrite G. destruct (Z.eqb_spec (counter s) 0); [lia|]. split; auto. lia.
      * lia.
      * rewrite in_use_cons. cbn [is_clone is_release b1]. lia.
      * apply pcs_ok; [auto|exact Logic.I].
      * rewrite count_cons, I6, R. reflexivity.
      * cbn. rewrite I6, R. auto.
    + (* C3 *)
      injection H as <-. unfold goto, say; fields.
      pose proof (sum_set hold _ _ C4 _ E) as Q1. pose proof (sum_set users _ _ C4 _ E) as Q2. pose proof (sum_set cleaning _ _ C4 _ E) as Q3.
      cbn [hold users cleaning] in *. constructor; fields.
      * lia.
      * rewrite G. destruct (Z.eqb (counter s) 0); lia.
      * lia.
      * rewrite in_use_cons. cbn [is_clone is_release b1]. lia.
      * apply pcs_ok; [auto|exact Logic.I].
      * rewrite count_cons. cbn. auto.
      * cbn [wo]. split; auto. rewrite I6. destruct (Nat.eqb_spec (rc s) 0); [lia|auto].
    + (* C4: the release *)
      destruct (Z.eqb_spec (counter s) 0); [lia|]. destruct I2 as [I2 I2'].
      assert (R : exists n, rc s = S (S n)) by (rewrite I2' in I3; cbn in I3; exists (sum users (ths s) - 1); lia). destruct R as (n' & R).
      unfold rust_release in H. rewrite R in H. injection H as <-. unfold goto, say, set_rc; fields.
      pose proof (sum_set hold _ _ C5 _ E) as Q1. pose proof (sum_set users _ _ C5 _ E) as Q2. pose proof (sum_set cleaning _ _ C5 _ E) as Q3.
      cbn [hold users cleaning] in *. constructor; fields.
      * lia.
      * rewrite G. destruct (Z.eqb_spec (counter s) 0); [lia|]. split; auto. lia.
      * lia.
      * rewrite in_use_cons. cbn [is_clone is_release b1]. lia.
      * apply pcs_ok; [auto|exact Logic.I].
      * rewrite count_cons, I6, R. reflexivity.
      * cbn [wo]. split; auto. rewrite I6, R. auto.
    + (* C5 *)
      destruct (Z.eqb_spec (counter s) 0); [lia|]. destruct I2 as [I2 I2'].
      destruct (Z.eqb_spec (counter s - 1) 0) as [Zc|Zc]; injection H as <-; unfold goto, set_counter, say; fields;
        (refine (Inv_kotlin s t _ _ _ _ _ I E G _ _ _ _ _);
        [try exact Logic.I | reflexivity | | | first [left; reflexivity | right; eexists; split; reflexivity]]).
      * pose proof (sum_set hold _ _ Clean _ E). cbn [hold] in *. lia.
      * pose proof (sum_set cleaning _ _ Clean _ E). cbn [cleaning] in *. rewrite (proj2 (Z.eqb_eq _ _) Zc). rewrite I2'. cbn. lia.
      * pose proof (sum_set hold _ _ Idle _ E). cbn [hold] in *. lia.
      * pose proof (sum_set cleaning _ _ Idle _ E). cbn [cleaning] in *. rewrite (proj2 (Z.eqb_neq _ _) Zc). split; auto. lia.
    + (* Clean *)
      destruct (Z.eqb_spec (counter s) 0); [|lia].
      assert (Cl : cleaned s = false) by (destruct (cleaned s); auto; cbn in I2; lia).
      assert (U0 : sum users (ths s) = 0) by lia.
      assert (R : rc s = 1) by (rewrite Cl in I3; cbn in I3; lia).
      unfold clean, rust_release in H. rewrite Cl in H. fields. rewrite R in H. injection H as <-. unfold goto, say; fields.
      pose proof (sum_set hold _ _ Idle _ E) as Q1. pose proof (sum_set users _ _ Idle _ E) as Q2. pose proof (sum_set cleaning _ _ Idle _ E) as Q3.
      cbn [hold users cleaning] in *. constructor; fields.
      * lia.
      * rewrite G. destruct (Z.eqb_spec (counter s) 0); [|lia]. rewrite Cl in I2. cbn in *. lia.
      * cbn. lia.
      * rewrite !in_use_cons. cbn [is_clone is_release b1]. lia.
      * apply pcs_ok; [auto|exact Logic.I].
      * rewrite !count_cons, I6, R. reflexivity.
      * cbn [wo]. rewrite !in_use_cons, !count_cons. cbn [is_clone is_release is_drop b1]. rewrite I6, R. cbn. repeat split; auto. lia.
    + (* D0 *)
      destruct (destroyed s) eqn:D; injection H as <-; unfold goto, say, set_destroyed; fields;
        (refine (Inv_kotlin s t _ _ _ _ _ I E G _ _ _ _ _);
        [try exact Logic.I | reflexivity | | | first [left; reflexivity | right; eexists; split; reflexivity]]).
      * rewrite D. pose proof (sum_set hold _ _ Idle _ E). cbn [hold] in *. lia.
      * pose proof (sum_set cleaning _ _ Idle _ E). cbn [cleaning] in *. destruct (Z.eqb (counter s) 0); lia.
      * pose proof (sum_set hold _ _ D1 _ E). cbn [hold b1 negb] in *. lia.
      * pose proof (sum_set cleaning _ _ D1 _ E). cbn [cleaning] in *. destruct (Z.eqb (counter s) 0); lia.
    + (* D1 *)
      destruct (Z.eqb_spec (counter s) 0); [lia|]. destruct I2 as [I2 I2'].
      destruct (Z.eqb_spec (counter s - 1) 0) as [Zc|Zc]; injection H as <-; unfold goto, set_counter, say; fields;
        (refine (Inv_kotlin s t _ _ _ _ _ I E G _ _ _ _ _);
        [try exact Logic.I | reflexivity | | | first [left; reflexivity | right; eexists; split; reflexivity]]).
      * pose proof (sum_set hold _ _ Clean _ E). cbn [hold] in *. lia.
      * pose proof (sum_set cleaning _ _ Clean _ E). cbn [cleaning] in *. rewrite (proj2 (Z.eqb_eq _ _) Zc). rewrite I2'. cbn. lia.
      * pose proof (sum_set hold _ _ Idle _ E). cbn [hold] in *. lia.
      * pose proof (sum_set cleaning _ _ Idle _ E). cbn [cleaning] in *. rewrite (proj2 (Z.eqb_neq _ _) Zc). split; auto. lia.
  - (* Gc *)
    destruct (gone s) eqn:G; [discriminate|]. destruct (forallb is_idle (ths s)) eqn:F; [|discriminate]. injection H as <-.
    assert (Ai : forall p, In p (ths s) -> p = Idle).
    { intros p X. rewrite forallb_forall in F. apply F in X. destruct p; try discriminate; auto. }
    assert (S0 : forall f, f Idle = 0 -> sum f (ths s) = 0).
    { intros f Hf. apply sum_zero. intros p X. rewrite (Ai _ X). auto. }
    rewrite (S0 users) in * by reflexivity.
    unfold clean, rust_release. fields.
    destruct (cleaned s) eqn:Cl; cbn [b1 negb Nat.add] in I3; rewrite ?I3; unfold say; fields; constructor; fields;
      rewrite ?(S0 users), ?(S0 hold) in * by reflexivity; rewrite ?in_use_cons, ?count_cons; cbn [is_clone is_release is_drop b1 negb wo];
      rewrite ?in_use_cons, ?count_cons; cbn [is_clone is_release is_drop b1 negb]; auto; try lia.
    all: try (rewrite I6, I3; cbn; repeat split; auto; lia).
    rewrite Cl. auto.
Qed.

Lemma Inv_run : forall xs s s', Inv s -> no_pass xs -> run s xs = Some s' -> Inv s'.
Proof.
  induction xs as [|x xs IH]; intros s s' I N H; cbn [run] in H; [injection H as <-; auto|].
  destruct (step s x) as [s1|] eqn:E; [|discriminate]. inversion_clear N. refine (IH s1 s' _ _ H); auto. exact (Inv_step _ _ _ I H0 E).
Qed.

Lemma reach_inv n xs s : run (init n) xs = Some s -> no_pass xs -> Inv s.
Proof. intros H N. exact (Inv_run _ _ _ (Inv_init n) N H). Qed.

(** ** Consequences *)

Lemma wo_app a b : wo (a ++ b) -> wo b.
Proof. induction a; cbn [app wo]; [auto|]. intros [_ H]. auto. Qed.

Lemma wo_ordered l : wo l -> well_ordered l.
Proof.
  intros W later earlier ->. split.
  - apply wo_app in W. destruct W as [[W _] _]. auto.
  - intros e X. apply in_split in X as (a & b & ->). rewrite <- app_assoc in W. apply wo_app in W.
    cbn [app wo] in W. destruct W as [W _].
    assert (C : 0 < count is_drop (b ++ EDrop :: earlier)).
    { unfold count. rewrite filter_app, app_length. cbn. lia. }
    destruct e; cbn; try tauto; lia.
Qed.

Lemma never_bad n xs s : run (init n) xs = Some s -> no_pass xs -> forall t, ~ In (EBad t) (log s).
Proof.
  intros H N t X. pose proof (i_wo _ (reach_inv _ _ _ H N)) as W. apply in_split in X as (a & b & E).
  rewrite E in W. apply wo_app in W. destruct W as [[] _].
Qed.

Lemma drop_once n xs s : run (init n) xs = Some s -> no_pass xs -> drops s <= 1.
Proof. intros H N. pose proof (i_drop _ (reach_inv _ _ _ H N)) as D. unfold drops, count in *. destruct (Nat.eqb (rc s) 0); cbn in D; lia. Qed.

Lemma ordered n xs s : run (init n) xs = Some s -> no_pass xs -> well_ordered (log s).
Proof. intros H N. apply wo_ordered. apply (i_wo _ (reach_inv _ _ _ H N)). Qed.

Lemma no_leak n xs s : run (init n) xs = Some s -> no_pass xs -> all_idle s -> destroyed s = true \/ gone s = true -> drops s = 1.
Proof.
  intros H N A D. destruct (reach_inv _ _ _ H N) as [I1 I2 I3 I4 I5 I6 I7].
  assert (S0 : forall f, f Idle = 0 -> sum f (ths s) = 0).
  { intros f Hf. apply sum_zero. intros p X. rewrite (A _ X). auto. }
  rewrite (S0 hold) in I1 by auto. rewrite (S0 users) in I3 by auto. rewrite (S0 cleaning) in I2 by auto.
  assert (Cl : cleaned s = true).
  { destruct (gone s); [apply I2|]. destruct D as [D|D]; [|discriminate]. rewrite D in I1. cbn in I1. rewrite I1 in I2. cbn in I2.
    destruct (cleaned s); auto. cbn in I2. lia. }
  rewrite Cl in I3. cbn in I3. rewrite I3 in I6. unfold drops, count in *. cbn in I6. auto.
Qed.

(** After the destruction has completed, calls are rejected without reaching Rust. *)
Lemma rejected_after n xs s t : run (init n) xs = Some s -> no_pass xs -> all_idle s -> destroyed s = true ->
  gone s = false -> t < length (ths s) ->
  exists s', run s [Call t Method; Go t] = Some s' /\ log s' = EReject t :: ECall t Method :: log s.
Proof.
  intros H N A D G Lt. destruct (reach_inv _ _ _ H N) as [I1 I2 I3 I4 I5 I6 I7].
  rewrite sum_zero in I1 by (intros p X; rewrite (A _ X); auto). rewrite D in I1. cbn in I1.
  destruct (nth_error (ths s) t) as [p|] eqn:E; [|apply nth_error_None in E; lia].
  pose proof (A _ (nth_error_In _ _ E)) as ->. cbn [run step]. rewrite G, E.
  unfold goto, say; fields.
  assert (E2 : nth_error (set_nth t C0 (ths s)) t = Some C0).
  { clear -E. revert t E. induction (ths s) as [|q l IH]; intros [|t] E; cbn in *; try discriminate; auto. }
  rewrite E2, I1. cbn. eexists. split; reflexivity.
Qed.

(** ** Passing the object as an argument *)

Definition bad_passes : list op := [Call 0 Destroy; Go 0; Go 0; Go 0; Call 0 Pass; Go 0].

Lemma pass_after_destroy n : exists s, run (init (S n)) bad_passes = Some s /\ In (EBad 0) (log s).
Proof. eexists. split; [vm_compute; reflexivity|]. cbn. auto. Qed.

Definition bad_race : list op := [Call 0 Pass; Call 1 Destroy; Go 1; Go 1; Go 1; Go 0].

Lemma pass_races n : exists s, run (init (S (S n))) bad_race = Some s /\ In (EBad 0) (log s).
Proof. eexists. split; [vm_compute; reflexivity|]. cbn. auto. Qed.
