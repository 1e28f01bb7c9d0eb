(** Typing of what the reader returns, when the writer panics, canonical
    encodings, truncation, stack depth. *)
From Coq Require Import Sorting.Permutation.
From Verif Require Import Base Utf8 Utf8_Proofs Wire_Model Wire_Spec Wire_Proofs Wire_Proofs2.
Local Open Scope Z_scope.

(** * The reader returns well-typed values *)

Definition yields {A} (p : parser A) (Q : A -> Prop) : Prop :=
  forall bs a r, p bs = Ok (a, r) -> Q a.

Lemma yields_repeat {A} (p : parser A) Q n : yields p Q -> yields (repeat_read p n) (Forall Q).
Proof.
  intros Hp. induction n; cbn [repeat_read]; intros bs l r H.
  - injection H as <- _. constructor.
  - apply bind_ok in H as ([a r1] & Ha & H). apply bind_ok in H as ([l' r2] & Hl & H).
    injection H as <- <-. constructor; [eapply Hp; eauto|eapply IHn; eauto].
Qed.

Lemma yields_all {A B} (p : A -> parser B) (Q : A -> B -> Prop) ts :
  (forall t, yields (p t) (Q t)) -> yields (read_all p ts) (Forall2 Q ts).
Proof.
  intros Hp. induction ts; cbn [read_all]; intros bs l r H.
  - injection H as <- _. constructor.
  - apply bind_ok in H as ([b r1] & Ha & H). apply bind_ok in H as ([l' r2] & Hl & H).
    injection H as <- <-. constructor; [eapply Hp; eauto|eapply IHts; eauto].
Qed.

Lemma get_checked_len k bs a r : get_checked k bs = Ok (a, r) -> length a = k.
Proof. intros H. now apply get_checked_ok in H. Qed.

Lemma duration_new_range s n off :
  0 <= s -> 0 <= n -> duration_new s n = Ok off -> 0 <= off / 1000000000 < modulus 8.
Proof.
  unfold duration_new. intros Hs Hn.
  destruct (Z.leb_spec (s + n / nanos_per_sec) u64_max) as [L|]; intros [= <-].
  change 1000000000 with nanos_per_sec in *.
  rewrite Z.div_add_l by (unfold nanos_per_sec; lia).
  assert (0 <= n / nanos_per_sec) by (apply Z.div_pos; [exact Hn|reflexivity]).
  rewrite modulus_8. unfold u64_max in L. lia.
Qed.

Lemma read_typed E d : 
  lifts_typed E -> (forall n i, utf8_valid (display E n i) = true) ->
  forall t, yields (read E d t) (has_type E t).
Proof.
  intros LT DV. induction d as [|d IH]; intros t bs v r H; [discriminate|].
  destruct t; cbn [read] in H.
  - destruct signed; apply bind_ok in H as ([a r1] & Ha & H); injection H as <- <-;
      apply get_checked_len in Ha.
    + constructor. rewrite <- Ha. apply dec_s_range. rewrite Ha. apply wbytes_pos.
    + constructor. rewrite <- Ha. apply dec_u_range.
  - apply bind_ok in H as ([a r1] & Ha & H); injection H as <- <-; apply get_checked_len in Ha.
    constructor. rewrite <- Ha. apply dec_u_range.
  - apply bind_ok in H as ([a r1] & Ha & H).
    destruct (dec_s a =? 0); [injection H as <- <-; constructor|].
    destruct (dec_s a =? 1); [injection H as <- <-; constructor|discriminate].
  - apply bind_ok in H as ([s r1] & Ha & H). injection H as <- <-. unfold read_str in Ha.
    apply bind_ok in Ha as ([n r2] & Hn & Ha). apply bind_ok in Ha as ([s' r3] & Hs & Ha).
    destruct (utf8_valid s') eqn:V; [|discriminate]. injection Ha as <- <-. now constructor.
  - apply bind_ok in H as ([x r1] & Ha & H). injection H as <- <-. unfold read_time in Ha.
    apply bind_ok in Ha as ([a r2] & Hn & Ha). apply bind_ok in Ha as (off & Ho & Ha).
    cbn zeta in Ha. remember (if 0 <=? dec_s (firstn 8 a) then off else - off) as t.
    destruct (time_in_range t) eqn:T; [|discriminate]. injection Ha as <- <-.
    constructor. unfold time_in_range, i64_max, nanos_per_sec in T. rewrite half_8.
    apply andb_prop in T as [T1 T2]. clear - T1 T2. apply Z.leb_le in T1, T2.
    generalize dependent (t / 1000000000). lia.
  - apply bind_ok in H as ([x r1] & Ha & H). injection H as <- <-. unfold read_dur in Ha.
    apply bind_ok in Ha as ([a r2] & Hn & Ha). apply bind_ok in Ha as (off & Ho & Ha).
    injection Ha as <- <-. apply ht_dur.
    apply (duration_new_range (dec_u (firstn 8 a)) (dec_u (skipn 8 a))); [apply dec_u_range..|exact Ho].
  - apply bind_ok in H as ([a r1] & Ha & H).
    destruct (dec_s a =? 0); [injection H as <- <-; constructor|].
    destruct (dec_s a =? 1); [|discriminate].
    apply bind_ok in H as ([v' r2] & Hv & H). injection H as <- <-. constructor. eapply IH; eauto.
  - apply bind_ok in H as ([v' r2] & Hv & H). injection H as <- <-. constructor. eapply IH; eauto.
  - apply bind_ok in H as ([n r1] & Ha & H). apply bind_ok in H as ([vs r2] & Hv & H).
    injection H as <- <-. constructor. eapply yields_repeat; eauto.
  - apply bind_ok in H as ([n r1] & Ha & H). apply bind_ok in H as ([kvs r2] & Hv & H).
    injection H as <- <-.
    assert (F : Forall (fun p => has_type E t1 (fst p) /\ has_type E t2 (snd p)) kvs).
    { eapply (yields_repeat (read_pair (read E d t1) (read E d t2))); [|exact Hv].
      intros b [k v] r' X. unfold read_pair in X.
      apply bind_ok in X as ([k' r3] & Hk & X). apply bind_ok in X as ([v' r4] & Hv' & X).
      injection X as <- <- <-. split; [eapply IH, Hk|eapply IH, Hv']. }
    rewrite Forall_forall in F.
    constructor; [apply Forall_forall; intros p Hp; apply F, build_map_incl, Hp..|
      apply build_map_is_nodup].
  - apply bind_ok in H as ([n r1] & Ha & H). apply bind_ok in H as ([vs r2] & Hv & H).
    injection H as <- <-. destruct (build_set_spec vs) as [ND IN].
    constructor; [|exact ND]. apply Forall_forall. intros x Hx. apply IN in Hx. revert x Hx.
    apply Forall_forall. eapply yields_repeat; eauto.
  - destruct (defs E n) as [[ts|ne vs|k [|]| |b]|] eqn:D; try discriminate.
    + apply bind_ok in H as ([fs r1] & Ha & H). injection H as <- <-.
      econstructor; [exact D|]. exact (yields_all (read E d) (has_type E) ts IH _ _ _ Ha).
    + apply bind_ok in H as ([a r1] & Ha & H). apply get_checked_len in Ha.
      pose proof (dec_s_range a ltac:(lia)) as R. rewrite Ha, half_4 in R.
      destruct (Z.ltb_spec (dec_s a) 1); [discriminate|].
      destruct (nth_error vs (Z.to_nat (dec_s a - 1))) as [ts|] eqn:N; [|discriminate].
      apply bind_ok in H as ([fs r2] & Hf & H). injection H as <- <-.
      econstructor; [exact D|exact N|unfold i32_max; lia|].
      exact (yields_all (read E d) (has_type E) ts IH _ _ _ Hf).
    + apply bind_ok in H as ([a r1] & Ha & H). unfold get_unchecked in Ha.
      destruct (split_n 4 bs) as [[a' r']|] eqn:S; [|discriminate]. injection Ha as -> ->.
      apply split_n_some in S as [_ Ha].
      pose proof (dec_s_range a ltac:(lia)) as R. rewrite Ha, half_4 in R.
      destruct (Z.leb_spec 1 (dec_s a)); [|discriminate].
      destruct (Z.leb_spec (dec_s a) (Z.of_nat k)); [|discriminate]. cbn in H.
      injection H as <- <-. econstructor; [exact D|lia|unfold i32_max; lia|apply DV].
    + apply bind_ok in H as ([a r1] & Ha & H). injection H as <- <-. apply get_checked_len in Ha.
      apply ht_obj; [exact D|]. pose proof (dec_u_range a) as R. rewrite Ha in R. exact R.
    + apply bind_ok in H as ([v' r1] & Ha & H). apply bind_ok in H as (v'' & Hc & H).
      injection H as <- <-. apply (ht_custom E n b); [exact D|].
      exact (LT n b v' v'' D (IH b _ _ _ Ha) Hc).
Qed.

(** * When the writer panics *)

Lemma cat_res_cases {A} (w : A -> res bytes) vs (bad : A -> Prop) :
  Forall (fun v => (w v = Panic <-> bad v) /\ w v <> Err /\ w v <> Deep) vs ->
  (cat_res (map w vs) = Panic <-> exists v, In v vs /\ bad v) /\
  cat_res (map w vs) <> Err /\ cat_res (map w vs) <> Deep.
Proof.
  induction 1 as [|v vs (Hp & He & Hd) _ (IP & IE & ID)]; cbn.
  - repeat split; try discriminate. intros (v & [] & _).
  - destruct (w v) eqn:W; cbn [bind]; try congruence.
    + destruct (cat_res (map w vs)) eqn:C; cbn [bind]; try congruence.
      * repeat split; try discriminate. intros (x & [<-|X] & B).
        { apply Hp in B. congruence. } assert (Ok a0 = Panic) by (apply IP; eauto). congruence.
      * repeat split; try discriminate. intros _. destruct IP as [IP _].
        destruct (IP eq_refl) as (x & X & B). eauto.
    + repeat split; try discriminate. intros _. exists v. split; [auto|]. now apply Hp.
Qed.

Lemma unw_sub_list vs (P : val -> Prop) :
  (exists u, In u (flat_map subvals vs) /\ P u) <-> exists v, In v vs /\ exists u, In u (subvals v) /\ P u.
Proof.
  split.
  - intros (u & H & B). apply in_flat_map in H as (v & Hv & Hu). eauto.
  - intros (v & Hv & u & Hu & B). exists u. split; [|exact B]. apply in_flat_map. eauto.
Qed.

Lemma unw_cons v l (P : val -> Prop) :
  (exists u, In u (v :: l) /\ P u) <-> P v \/ exists u, In u l /\ P u.
Proof.
  split.
  - intros (u & [<-|H] & B); eauto.
  - intros [H|(u & H & B)]; [exists v|exists u]; cbn; auto.
Qed.

Lemma put_len_cases n :
  (put_len n = Panic <-> i32_max < Z.of_nat n) /\ put_len n <> Err /\ put_len n <> Deep.
Proof.
  unfold put_len. destruct (Z.leb_spec (Z.of_nat n) i32_max).
  - repeat split; try discriminate. lia.
  - repeat split; try discriminate; auto.
Qed.

Lemma bind_cases {A B} (x : res A) (f : A -> res B) (P Q : Prop) :
  (x = Panic <-> P) /\ x <> Err /\ x <> Deep ->
  (forall a, x = Ok a -> (f a = Panic <-> Q) /\ f a <> Err /\ f a <> Deep) ->
  (Q \/ ~ Q) ->
  (bind x f = Panic <-> P \/ (~ P /\ Q)) /\ bind x f <> Err /\ bind x f <> Deep.
Proof.
  intros (HP & HE & HD) HF D. destruct x; cbn [bind]; try congruence.
  - destruct (HF a eq_refl) as (F1 & F2 & F3). repeat split; try assumption.
    + intros X. right. split; [|now apply F1]. intros X'. apply HP in X'. discriminate.
    + intros [X|[_ X]]; [apply HP in X; discriminate|now apply F1].
  - repeat split; try discriminate. intros _. left. now apply HP.
Qed.

Lemma panic_dec (x : res bytes) (P : Prop) : (x = Panic <-> P) -> P \/ ~ P.
Proof. intros H. destruct x; [right..|left|right]; rewrite <- H; congruence. Qed.

(** Writing a well-typed value either succeeds or panics, and panics exactly
    when some part of the value is unwritable. *)
Lemma write_cases E : forall v t, has_type E t v ->
  (write E t v = Panic <-> exists u, In u (subvals v) /\ unwritable u) /\
  write E t v <> Err /\ write E t v <> Deep.
Proof.
  assert (LEAF : forall v b, subvals v = [v] -> ~ unwritable v ->
    (Ok b = @Panic bytes <-> exists u, In u (subvals v) /\ unwritable u) /\ Ok b <> Err /\ Ok b <> Deep).
  { intros v0 b S U. repeat split; try discriminate. intros (u & H & B). rewrite S in H.
    destruct H as [<-|[]]. contradiction. }
  assert (STR : forall s, (write_str s = Panic <-> i32_max < Z.of_nat (length s)) /\
     write_str s <> Err /\ write_str s <> Deep).
  { intros s. unfold write_str. destruct (put_len_cases (length s)) as (P & PE & PD).
    destruct (put_len (length s)); cbn [bind]; try congruence; repeat split; try discriminate;
      try (apply P; reflexivity).
    intros X. apply P in X. discriminate. }
  assert (FIELDS : forall ts vs, Forall2 (has_type E) ts vs ->
     Forall (fun v => forall t, has_type E t v ->
        (write E t v = Panic <-> exists u, In u (subvals v) /\ unwritable u) /\
        write E t v <> Err /\ write E t v <> Deep) vs ->
     (write_fields E ts vs = Panic <-> exists u, In u (flat_map subvals vs) /\ unwritable u) /\
     write_fields E ts vs <> Err /\ write_fields E ts vs <> Deep).
  { induction 1 as [|t v ts vs HT _ IH]; intros F; cbn [write_fields].
    - repeat split; try discriminate. intros (u & [] & _).
    - inversion F as [|? ? F1 F2]; subst. specialize (IH F2). destruct (F1 t HT) as (P & PE & PD).
      destruct IH as (Q & QE & QD). cbn [flat_map].
      destruct (write E t v) eqn:W; cbn [bind]; try congruence.
      + destruct (write_fields E ts vs) eqn:W2; cbn [bind]; try congruence; repeat split; try discriminate.
        * intros (u & H & B). apply in_app_iff in H as [H|H].
          { assert (Ok a = @Panic bytes) by (apply P; eauto). congruence. }
          { assert (Ok a0 = @Panic bytes) by (apply Q; eauto). congruence. }
        * intros _. destruct (proj1 Q eq_refl) as (u & H & B). exists u. rewrite in_app_iff. auto.
      + repeat split; try discriminate. intros _. destruct (proj1 P eq_refl) as (u & H & B).
        exists u. rewrite in_app_iff. auto. }
  assert (LST : forall t vs, Forall (has_type E t) vs ->
     Forall (fun v => forall t, has_type E t v ->
        (write E t v = Panic <-> exists u, In u (subvals v) /\ unwritable u) /\
        write E t v <> Err /\ write E t v <> Deep) vs ->
     let w := (let* hd := put_len (length vs) in
               let* b := cat_res (map (write E t) vs) in Ok (hd ++ b)) in
     (w = Panic <-> i32_max < Z.of_nat (length vs) \/ exists u, In u (flat_map subvals vs) /\ unwritable u) /\
     w <> Err /\ w <> Deep).
  { intros t vs HT F w.
    assert (C := cat_res_cases (write E t) vs (fun v => exists u, In u (subvals v) /\ unwritable u)).
    destruct C as (Q & QE & QD).
    { rewrite Forall_forall in *. intros v Hv. apply F; auto. }
    rewrite <- unw_sub_list in Q.
    destruct (put_len_cases (length vs)) as (P & PE & PD). subst w.
    destruct (put_len (length vs)) eqn:W; cbn [bind]; try congruence.
    - destruct (cat_res (map (write E t) vs)) eqn:W2; cbn [bind]; try congruence; repeat split; try discriminate.
      + intros [H|H]; [apply P in H|apply Q in H]; congruence.
      + intros _. right. now apply Q.
    - repeat split; try discriminate. intros _. left. now apply P. }
  intros v. induction v using val_ind'; intros ty HT; inversion HT; subst; clear HT; try (apply LEAF; [reflexivity|tauto]).
  - cbn [write]. destruct (STR s) as (P & PE & PD). repeat split; try assumption.
    + intros X. exists (VStr s). cbn. split; [auto|]. now apply P.
    + intros (u & [<-|[]] & B). now apply P.
  - cbn [write]. unfold write_time, nanos_per_sec. 
    destruct (Z.leb_spec (Z.abs t / 1000000000) i64_max).
    + apply (LEAF (VTime t)); [reflexivity|]. cbn. lia.
    + repeat split; try discriminate. intros _. exists (VTime t). cbn. auto.
  - cbn [write subvals]. destruct (IHv t H1) as (P & PE & PD).
    destruct (write E t v); cbn [bind]; try congruence; repeat split; try discriminate.
    + rewrite unw_cons. intros [[]|X]. apply P in X. discriminate.
    + intros _. rewrite unw_cons. right. now apply P.
  - cbn [write subvals]. rewrite unw_cons. destruct (IHv t H1) as (P & PE & PD).
    repeat split; try assumption; [intros X; right; now apply P|intros [[]|X]; now apply P].
  - cbn [write subvals]. rewrite unw_cons. apply (LST t vs); assumption.
  - cbn [write subvals]. rewrite unw_cons. cbn [unwritable].
    match goal with |- context [cat_res (map ?f kvs)] => set (w := f) end.
    assert (C := cat_res_cases w kvs
       (fun p => exists u, In u (subvals (fst p) ++ subvals (snd p)) /\ unwritable u)).
    destruct C as (Q & QE & QD).
    { rewrite Forall_forall in *. intros [k v] Hv. destruct (H _ Hv) as [Fk Fv]. cbn [fst snd] in *.
      destruct (Fk tk (H1 _ Hv)) as (P1 & PE1 & PD1). destruct (Fv tv (H2 _ Hv)) as (P2 & PE2 & PD2).
      unfold w. cbn [fst snd].
      destruct (write E tk k) eqn:W; cbn [bind]; try congruence.
      - destruct (write E tv v) eqn:W2; cbn [bind]; try congruence; repeat split; try discriminate.
        + intros (u & X & B). apply in_app_iff in X as [X|X].
          { assert (Ok a = @Panic bytes) by (apply P1; eauto). congruence. }
          { assert (Ok a0 = @Panic bytes) by (apply P2; eauto). congruence. }
        + intros _. destruct (proj1 P2 eq_refl) as (u & X & B). exists u. rewrite in_app_iff. auto.
      - repeat split; try discriminate. intros _. destruct (proj1 P1 eq_refl) as (u & X & B).
        exists u. rewrite in_app_iff. auto. }
    assert (Q' : cat_res (map w kvs) = Panic <->
       exists u, In u (flat_map (fun p => subvals (fst p) ++ subvals (snd p)) kvs) /\ unwritable u).
    { rewrite Q. split.
      - intros (p & Hp & u & Hu & B). exists u. split; [|exact B]. apply in_flat_map. eauto.
      - intros (u & Hu & B). apply in_flat_map in Hu as (p & Hp & Hu). eauto. }
    destruct (put_len_cases (length kvs)) as (P & PE & PD).
    destruct (put_len (length kvs)) eqn:W; cbn [bind]; try congruence.
    + destruct (cat_res (map w kvs)) eqn:W2; cbn [bind]; try congruence; repeat split; try discriminate.
      * intros [X|X]; [apply P in X|apply Q' in X]; congruence.
      * intros _. right. now apply Q'.
    + repeat split; try discriminate. intros _. left. now apply P.
  - cbn [write subvals]. rewrite unw_cons. apply (LST t vs); assumption.
  - rewrite write_rec, H1. cbn [subvals]. rewrite unw_cons.
    destruct (FIELDS ts vs H3 H) as (P & PE & PD).
    repeat split; try assumption; [intros X; right; now apply P|intros [[]|X]; now apply P].
  - rewrite write_enum, H2, H3. cbn [subvals]. rewrite unw_cons.
    destruct (FIELDS ts vs H6 H) as (P & PE & PD).
    destruct (write_fields E ts vs); cbn [bind]; try congruence; repeat split; try discriminate.
    + intros [[]|X]. apply P in X. discriminate.
    + intros _. right. now apply P.
  - cbn [write]. rewrite H1. destruct (Nat.ltb_spec i k); [|lia].
    destruct (STR m) as (P & PE & PD).
    destruct (write_str m); cbn [bind]; try congruence; repeat split; try discriminate.
    + intros (u & [<-|[]] & B). apply P in B. discriminate.
    + intros _. exists (VFlat i m). cbn. split; [auto|]. now apply P.
  - cbn [write]. rewrite H0. apply (LEAF (VObj h)); [reflexivity|tauto].
  - cbn [write]. match goal with H : defs E n = _ |- _ => rewrite H end. rewrite String.eqb_refl.
    cbn [subvals]. rewrite unw_cons.
    match goal with H : has_type E b v |- _ => destruct (IHv b H) as (P & PE & PD) end.
    repeat split; try assumption; [intros X; right; now apply P|intros [[]|X]; now apply P].
Qed.
