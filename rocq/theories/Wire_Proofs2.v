(** More lemmas about the wire model: locality, stack depth, panics, typing,
    canonical encodings. *)
From Coq Require Import Sorting.Permutation.
From Verif Require Import Base Utf8 Utf8_Proofs Wire_Model Wire_Spec Wire_Proofs.
Local Open Scope Z_scope.

(** * Locality: a parser looks only at what it consumes *)

(** [strict] also asks that panics and stack exhaustion do not depend on the
    bytes after the ones that are there. *)
Definition local (strict : bool) {A} (p : parser A) : Prop :=
  forall bs x,
  match p bs with
  | Ok (a, r) => p (bs ++ x) = Ok (a, r ++ x) /\ exists u, bs = u ++ r
  | Err => True
  | Panic => strict = true -> p (bs ++ x) = Panic
  | Deep => strict = true -> p (bs ++ x) = Deep
  end.

Lemma local_bind s {A B} (p : parser A) (k : A * bytes -> res (B * bytes)) :
  local s p -> (forall a, local s (fun r => k (a, r))) -> local s (fun bs => bind (p bs) k).
Proof.
  intros Hp Hk bs x. specialize (Hp bs x).
  destruct (p bs) as [[a r]| | |]; cbn [bind]; auto.
  - destruct Hp as [Hp [u ->]]. specialize (Hk a r x). rewrite Hp. cbn [bind].
    destruct (k (a, r)) as [[b r']| | |]; auto.
    destruct Hk as [Hk [u' ->]]. split; [exact Hk|]. exists (u ++ u'). now rewrite app_assoc.
  - intros S. now rewrite Hp.
  - intros S. now rewrite Hp.
Qed.

Lemma local_ret s {A} (a : A) : local s (fun r => Ok (a, r)).
Proof. intros bs x. split; [reflexivity|]. now exists []. Qed.
Lemma local_err s {A} : local s (fun _ => @Err (A * bytes)).
Proof. intros bs x. exact I. Qed.
Lemma local_panic s {A} : local s (fun _ => @Panic (A * bytes)).
Proof. intros bs x; cbn; intros; reflexivity. Qed.
Lemma local_deep s {A} : local s (fun _ => @Deep (A * bytes)).
Proof. intros bs x; cbn; intros; reflexivity. Qed.

Lemma local_get_checked s k : local s (get_checked k).
Proof.
  intros bs x. destruct (get_checked k bs) as [[a r]| | |] eqn:H; auto.
  - apply get_checked_ok in H as [-> H]. split; [|eauto].
    rewrite <- app_assoc. now apply get_checked_app.
  - unfold get_checked in H. destruct (split_n k bs); discriminate.
  - unfold get_checked in H. destruct (split_n k bs); discriminate.
Qed.

Lemma local_get_unchecked k : local false (get_unchecked k).
Proof.
  intros bs x. unfold get_unchecked.
  destruct (split_n k bs) as [[a r]|] eqn:H; [|discriminate].
  apply split_n_some in H as [-> H]. split; [|eauto].
  rewrite <- app_assoc. now rewrite split_n_app.
Qed.

(** Lifting a value computed without touching the buffer. *)
Lemma local_pure s {A B} (e : res A) (k : A -> bytes -> res (B * bytes)) :
  (forall a, local s (k a)) -> local s (fun r => bind e (fun a => k a r)).
Proof.
  intros Hk bs x. destruct e; cbn [bind]; auto. apply Hk.
Qed.

Lemma local_if s {A} (c : bool) (p q : parser A) :
  local s p -> local s q -> local s (fun r => if c then p r else q r).
Proof. destruct c; auto. Qed.

Lemma local_ext s {A} (p q : parser A) : (forall bs, p bs = q bs) -> local s p -> local s q.
Proof. intros H Hp bs x. rewrite <- !H. apply Hp. Qed.

Lemma local_get_len s : local s get_len.
Proof.
  unfold get_len. apply local_bind; [apply local_get_checked|]. intros a.
  apply (local_if s (dec_s a <? 0)); [apply local_err|apply local_ret].
Qed.

Lemma local_read_str s : local s read_str.
Proof.
  unfold read_str. apply local_bind; [apply local_get_len|]. intros n.
  apply local_bind; [apply local_get_checked|]. intros a.
  apply (local_if s (utf8_valid a)); [apply local_ret|apply local_err].
Qed.

Lemma local_read_dur s : local s read_dur.
Proof.
  unfold read_dur. apply local_bind; [apply local_get_checked|]. intros a.
  apply (local_pure s (duration_new _ _) (fun d r => Ok (d, r))). intros d. apply local_ret.
Qed.

Lemma local_read_time s : local s read_time.
Proof.
  unfold read_time. apply local_bind; [apply local_get_checked|]. intros a.
  apply (local_pure s (duration_new _ _)
    (fun off r => let t := if 0 <=? dec_s (firstn 8 a) then off else - off in
                  if time_in_range t then Ok (t, r) else Panic)). intros d.
  apply (local_if s (time_in_range _)); [apply local_ret|apply local_panic].
Qed.

Lemma local_repeat s {A} (p : parser A) n : local s p -> local s (repeat_read p n).
Proof.
  intros Hp. induction n; cbn [repeat_read]; [apply local_ret|].
  apply local_bind; [exact Hp|]. intros a.
  apply local_bind; [exact IHn|]. intros l. apply local_ret.
Qed.

Lemma local_all s {A B} (p : A -> parser B) ts :
  (forall t, In t ts -> local s (p t)) -> local s (read_all p ts).
Proof.
  induction ts as [|t ts IH]; intros Hp; cbn [read_all]; [apply local_ret|].
  apply local_bind; [apply Hp; cbn; auto|]. intros a.
  apply local_bind; [apply IH; intros; apply Hp; cbn; auto|]. intros l. apply local_ret.
Qed.

Lemma local_pair s {A B} (p : parser A) (q : parser B) :
  local s p -> local s q -> local s (read_pair p q).
Proof.
  intros Hp Hq. unfold read_pair. apply local_bind; [exact Hp|]. intros a.
  apply local_bind; [exact Hq|]. intros b. apply local_ret.
Qed.

(** Flat errors are read with an unchecked [get_i32]. *)
Definition no_flat (E : env) (t : ty) : Prop :=
  forall n k r, uses E t (TNamed n) -> defs E n <> Some (DFlat k r).

Lemma local_read s E d : forall t,
  (s = true -> no_flat E t) -> local s (read E d t).
Proof.
  induction d as [|d IH]; intros t HF.
  { intros bs x; cbn; intros; reflexivity. }
  destruct t; cbn [read].
  - destruct signed; (apply local_bind; [apply local_get_checked|intros a; apply local_ret]).
  - apply local_bind; [apply local_get_checked|intros a; apply local_ret].
  - apply local_bind; [apply local_get_checked|intros a].
    apply (local_if s (dec_s a =? 0)); [apply local_ret|].
    apply (local_if s (dec_s a =? 1)); [apply local_ret|apply local_err].
  - apply local_bind; [apply local_read_str|intros a; apply local_ret].
  - apply local_bind; [apply local_read_time|intros a; apply local_ret].
  - apply local_bind; [apply local_read_dur|intros a; apply local_ret].
  - apply local_bind; [apply local_get_checked|intros a].
    apply (local_if s (dec_s a =? 0)); [apply local_ret|].
    apply (local_if s (dec_s a =? 1)); [|apply local_err].
    apply local_bind; [|intros v; apply local_ret].
    apply IH. intros S n k r U. apply (HF S). now constructor.
  - apply local_bind; [|intros v; apply local_ret].
    apply IH. intros S n k r U. apply (HF S). now constructor.
  - apply local_bind; [apply local_get_len|intros n].
    apply local_bind; [|intros v; apply local_ret]. apply local_repeat.
    apply IH. intros S n' k r U. apply (HF S). now constructor.
  - apply local_bind; [apply local_get_len|intros n].
    apply local_bind; [|intros v; apply local_ret]. apply local_repeat.
    apply local_pair; apply IH; intros S n' k r U; apply (HF S); [now apply uses_key|now apply uses_val].
  - apply local_bind; [apply local_get_len|intros n].
    apply local_bind; [|intros v; apply local_ret]. apply local_repeat.
    apply IH. intros S n' k r U. apply (HF S). now constructor.
  - destruct (defs E n) as [[ts|ne vs|k r| |b]|] eqn:D; [..|apply local_err].
    + apply local_bind; [|intros v; apply local_ret]. apply local_all. intros t Ht.
      apply IH. intros S n' k r U. apply (HF S). eapply uses_field; eauto.
    + apply local_bind; [apply local_get_checked|intros a].
      apply (local_if s (dec_s a <? 1)); [apply local_err|].
      destruct (nth_error vs (Z.to_nat (dec_s a - 1))) as [ts|] eqn:N; [|apply local_err].
      apply local_bind; [|intros v; apply local_ret]. apply local_all. intros t Ht.
      apply IH. intros S n' k r U. apply (HF S). eapply uses_variant; eauto using nth_error_In.
    + destruct s.
      { exfalso. apply (HF eq_refl n k r); [constructor|exact D]. }
      destruct r; [|intros bs x; reflexivity].
      apply local_bind; [apply local_get_unchecked|intros a].
      apply (local_if false ((1 <=? dec_s a) && (dec_s a <=? Z.of_nat k)));
        [apply local_ret|apply local_err].
    + apply local_bind; [apply local_get_checked|intros a; apply local_ret].
    + apply local_bind.
      * apply IH. intros S n' k r U. apply (HF S). eapply uses_builtin; eauto.
      * intros v. apply (local_pure s (clift E n v) (fun v' r => Ok (VCustom n v', r))).
        intros v'. apply local_ret.
Qed.

Lemma read_ext E d t bs v r x :
  read E d t bs = Ok (v, r) -> read E d t (bs ++ x) = Ok (v, r ++ x).
Proof.
  intros H. pose proof (local_read false E d t ltac:(discriminate) bs x) as L.
  rewrite H in L. apply L.
Qed.

Lemma read_suffix E d t bs v r : read E d t bs = Ok (v, r) -> exists u, bs = u ++ r.
Proof.
  intros H. pose proof (local_read false E d t ltac:(discriminate) bs []) as L.
  rewrite H in L. apply L.
Qed.

(** * Depth: more stack never changes a result *)

Definition deeper {A} (p q : parser A) : Prop := forall bs, p bs <> Deep -> q bs = p bs.

Lemma deeper_bind {A B} (p q : parser A) (k l : A * bytes -> res (B * bytes)) :
  deeper p q -> (forall a, deeper (fun r => k (a, r)) (fun r => l (a, r))) ->
  deeper (fun bs => bind (p bs) k) (fun bs => bind (q bs) l).
Proof.
  intros H K bs N. destruct (p bs) as [[a r]| | |] eqn:P; cbn [bind] in *;
    rewrite (H bs) by congruence; rewrite P; cbn [bind]; try reflexivity.
  - apply (K a r N).
Qed.

Lemma deeper_refl {A} (p : parser A) : deeper p p.
Proof. intros bs _. reflexivity. Qed.

Lemma deeper_repeat {A} (p q : parser A) n : deeper p q -> deeper (repeat_read p n) (repeat_read q n).
Proof.
  intros H. induction n; cbn [repeat_read]; [apply deeper_refl|].
  apply deeper_bind; [exact H|]. intros a. apply deeper_bind; [exact IHn|]. intros; apply deeper_refl.
Qed.

Lemma deeper_all {A B} (p q : A -> parser B) ts :
  (forall t, deeper (p t) (q t)) -> deeper (read_all p ts) (read_all q ts).
Proof.
  intros H. induction ts; cbn [read_all]; [apply deeper_refl|].
  apply deeper_bind; [apply H|]. intros b. apply deeper_bind; [exact IHts|]. intros; apply deeper_refl.
Qed.

Lemma deeper_read E d : forall t, deeper (read E d t) (read E (S d) t).
Proof.
  induction d as [|d IH]; intros t.
  { intros bs H. cbn in H. congruence. }
  remember (S d) as d'. destruct t; cbn [read]; subst d'; cbn [read]; try apply deeper_refl.
  - apply deeper_bind; [apply deeper_refl|]. intros a.
    destruct (dec_s a =? 0); [apply deeper_refl|]. destruct (dec_s a =? 1); [|apply deeper_refl].
    apply deeper_bind; [apply IH|]. intros; apply deeper_refl.
  - apply deeper_bind; [apply IH|]. intros; apply deeper_refl.
  - apply deeper_bind; [apply deeper_refl|]. intros n.
    apply deeper_bind; [apply deeper_repeat, IH|]. intros; apply deeper_refl.
  - apply deeper_bind; [apply deeper_refl|]. intros n.
    apply deeper_bind; [apply deeper_repeat|]; [|intros; apply deeper_refl].
    unfold read_pair. apply deeper_bind; [apply IH|]. intros a.
    apply deeper_bind; [apply IH|]. intros; apply deeper_refl.
  - apply deeper_bind; [apply deeper_refl|]. intros n.
    apply deeper_bind; [apply deeper_repeat, IH|]. intros; apply deeper_refl.
  - destruct (defs E n) as [[ts|ne vs|k r| |b]|] eqn:D; try apply deeper_refl.
    + apply deeper_bind; [apply deeper_all, IH|]. intros; apply deeper_refl.
    + apply deeper_bind; [apply deeper_refl|]. intros a.
      destruct (dec_s a <? 1); [apply deeper_refl|].
      destruct (nth_error vs (Z.to_nat (dec_s a - 1))); [|apply deeper_refl].
      apply deeper_bind; [apply deeper_all, IH|]. intros; apply deeper_refl.
    + apply deeper_bind; [apply IH|]. intros; apply deeper_refl.
Qed.

Lemma read_deeper E d d' t bs :
  (d <= d')%nat -> read E d t bs <> Deep -> read E d' t bs = read E d t bs.
Proof.
  induction 1 as [|d' _ IH]; intros N; [reflexivity|].
  rewrite <- IH by assumption. apply deeper_read. rewrite IH; assumption.
Qed.

(** * Panics *)

Definition avoids {A} (bad : res (A * bytes)) (p : parser A) : Prop := forall bs, p bs <> bad.
Notation nopanic := (avoids Panic).

Lemma nopanic_bind {A B} (p : parser A) (k : A * bytes -> res (B * bytes)) :
  nopanic p -> (forall a, nopanic (fun r => k (a, r))) -> nopanic (fun bs => bind (p bs) k).
Proof.
  intros Hp Hk bs H. apply bind_panic in H as [H|[[a r] [_ H]]].
  - exact (Hp bs H).
  - exact (Hk a r H).
Qed.

Lemma nopanic_ret {A} (a : A) : nopanic (fun r => Ok (a, r)).
Proof. intros bs. discriminate. Qed.

Lemma nopanic_err {A} : nopanic (fun _ => @Err (A * bytes)).
Proof. intros bs. discriminate. Qed.

Lemma nopanic_get k : nopanic (get_checked k).
Proof. intros bs. unfold get_checked. destruct (split_n k bs); discriminate. Qed.

Lemma nopanic_len : nopanic get_len.
Proof.
  unfold get_len. apply nopanic_bind; [apply nopanic_get|]. intros a.
  destruct (dec_s a <? 0); [apply nopanic_err|apply nopanic_ret].
Qed.

Lemma nopanic_str : nopanic read_str.
Proof.
  unfold read_str. apply nopanic_bind; [apply nopanic_len|]. intros n.
  apply nopanic_bind; [apply nopanic_get|]. intros a.
  destruct (utf8_valid a); [apply nopanic_ret|apply nopanic_err].
Qed.

Lemma nopanic_repeat {A} (p : parser A) n : nopanic p -> nopanic (repeat_read p n).
Proof.
  intros Hp. induction n; cbn [repeat_read]; [apply nopanic_ret|].
  apply nopanic_bind; [exact Hp|]. intros a.
  apply nopanic_bind; [exact IHn|]. intros l. apply nopanic_ret.
Qed.

Lemma nopanic_all {A B} (p : A -> parser B) ts :
  (forall t, In t ts -> nopanic (p t)) -> nopanic (read_all p ts).
Proof.
  induction ts as [|t ts IH]; intros Hp; cbn [read_all]; [apply nopanic_ret|].
  apply nopanic_bind; [apply Hp; cbn; auto|]. intros a.
  apply nopanic_bind; [apply IH; intros; apply Hp; cbn; auto|]. intros l. apply nopanic_ret.
Qed.

(** A type from which none of the panicking readers can be reached. *)
Definition panic_free (E : env) (t : ty) : Prop :=
  forall u, uses E t u ->
  u <> TTimestamp /\ u <> TDuration /\
  forall n, u = TNamed n ->
    (forall k r, defs E n <> Some (DFlat k r)) /\
    (forall b v, defs E n = Some (DCustom b) -> clift E n v <> Panic).

Lemma read_nopanic E d : forall t, panic_free E t -> nopanic (read E d t).
Proof.
  induction d as [|d IH]; intros t HF.
  { intros bs. discriminate. }
  assert (SUB : forall u, (forall w, uses E u w -> uses E t w) -> nopanic (read E d u)).
  { intros u Hu. apply IH. intros w Hw. apply HF, Hu, Hw. }
  destruct t; cbn [read].
  - destruct signed; (apply nopanic_bind; [apply nopanic_get|intros a; apply nopanic_ret]).
  - apply nopanic_bind; [apply nopanic_get|intros a; apply nopanic_ret].
  - apply nopanic_bind; [apply nopanic_get|intros a].
    destruct (dec_s a =? 0); [apply nopanic_ret|].
    destruct (dec_s a =? 1); [apply nopanic_ret|apply nopanic_err].
  - apply nopanic_bind; [apply nopanic_str|intros a; apply nopanic_ret].
  - exfalso. destruct (HF TTimestamp) as [X _]; [constructor|]. congruence.
  - exfalso. destruct (HF TDuration) as (_ & X & _); [constructor|]. congruence.
  - apply nopanic_bind; [apply nopanic_get|intros a].
    destruct (dec_s a =? 0); [apply nopanic_ret|].
    destruct (dec_s a =? 1); [|apply nopanic_err].
    apply nopanic_bind; [|intros v; apply nopanic_ret].
    apply SUB. now constructor.
  - apply nopanic_bind; [|intros v; apply nopanic_ret]. apply SUB. now constructor.
  - apply nopanic_bind; [apply nopanic_len|intros n].
    apply nopanic_bind; [|intros v; apply nopanic_ret]. apply nopanic_repeat.
    apply SUB. now constructor.
  - apply nopanic_bind; [apply nopanic_len|intros n].
    apply nopanic_bind; [|intros v; apply nopanic_ret]. apply nopanic_repeat.
    unfold read_pair. apply nopanic_bind; [apply SUB; intros; now apply uses_key|]. intros a.
    apply nopanic_bind; [apply SUB; intros; now apply uses_val|]. intros b. apply nopanic_ret.
  - apply nopanic_bind; [apply nopanic_len|intros n].
    apply nopanic_bind; [|intros v; apply nopanic_ret]. apply nopanic_repeat.
    apply SUB. now constructor.
  - destruct (HF (TNamed n)) as (_ & _ & HN); [constructor|].
    specialize (HN n eq_refl). destruct HN as [NF NC].
    destruct (defs E n) as [[ts|ne vs|k r| |b]|] eqn:D; [..|apply nopanic_err].
    + apply nopanic_bind; [|intros v; apply nopanic_ret]. apply nopanic_all. intros t Ht.
      apply SUB. intros. eapply uses_field; eauto.
    + apply nopanic_bind; [apply nopanic_get|intros a].
      destruct (dec_s a <? 1); [apply nopanic_err|].
      destruct (nth_error vs (Z.to_nat (dec_s a - 1))) as [ts|] eqn:N; [|apply nopanic_err].
      apply nopanic_bind; [|intros v; apply nopanic_ret]. apply nopanic_all. intros t Ht.
      apply SUB. intros. eapply uses_variant; eauto using nth_error_In.
    + exfalso. now apply (NF k r).
    + apply nopanic_bind; [apply nopanic_get|intros a; apply nopanic_ret].
    + apply nopanic_bind; [apply SUB; intros; eapply uses_builtin; eauto|]. intros v r.
      specialize (NC b v eq_refl). destruct (clift E n v); cbn; congruence.
Qed.

(** Exactly when a duration or an instant makes the reader panic. *)
Lemma read_dur_panic bs :
  read_dur bs = Panic <->
  exists s n r, bs = enc 8 s ++ enc 4 n ++ r /\ 0 <= s < modulus 8 /\ 0 <= n < modulus 4 /\
                modulus 8 <= s + n / 1000000000.
Proof.
  unfold read_dur, duration_new, u64_max, nanos_per_sec. rewrite modulus_8. split.
  - destruct (get_checked 12 bs) as [[a r]| | |] eqn:G; cbn [bind];
      try (unfold get_checked in G; destruct (split_n 12 bs); discriminate); try discriminate.
    apply get_checked_ok in G as [-> L].
    destruct (Z.leb_spec (dec_u (firstn 8 a) + dec_u (skipn 8 a) / 1000000000) 18446744073709551615);
      cbn [bind]; [discriminate|intros _].
    exists (dec_u (firstn 8 a)), (dec_u (skipn 8 a)), r.
    assert (L1 : length (firstn 8 a) = 8%nat) by (rewrite firstn_length; lia).
    assert (L2 : length (skipn 8 a) = 4%nat) by (rewrite skipn_length; lia).
    pose proof (dec_u_range (firstn 8 a)) as R1. pose proof (dec_u_range (skipn 8 a)) as R2.
    rewrite L1, modulus_8 in R1. rewrite L2, modulus_4 in R2.
    pose proof (enc_dec_u (firstn 8 a)) as E1. pose proof (enc_dec_u (skipn 8 a)) as E2.
    rewrite L1 in E1. rewrite L2 in E2. rewrite E1, E2, app_assoc, firstn_skipn. rewrite modulus_4.
    repeat split; try lia; reflexivity.
  - intros (s & n & r & -> & Rs & Rn & H). rewrite modulus_4 in Rn.
    rewrite app_assoc, get12. cbn [bind]. rewrite firstn_enc, skipn_enc.
    rewrite !dec_u_enc by (rewrite ?modulus_8, ?modulus_4; lia).
    destruct (Z.leb_spec (s + n / 1000000000) 18446744073709551615); [lia|reflexivity].
Qed.

Lemma read_time_panic bs :
  read_time bs = Panic <->
  exists s n r, bs = enc 8 s ++ enc 4 n ++ r /\ - half 8 <= s < half 8 /\ 0 <= n < modulus 4 /\
     let t := if 0 <=? s then s * 1000000000 + n else s * 1000000000 - n in
     ~ (- half 8 <= t / 1000000000 < half 8).
Proof.
  unfold read_time, duration_new, u64_max, nanos_per_sec, wrapping_abs_as_u64, time_in_range, i64_max.
  rewrite half_8. unfold nanos_per_sec. split.
  - destruct (get_checked 12 bs) as [[a r]| | |] eqn:G; cbn [bind];
      try (unfold get_checked in G; destruct (split_n 12 bs); discriminate); try discriminate.
    apply get_checked_ok in G as [-> L].
    assert (L1 : length (firstn 8 a) = 8%nat) by (rewrite firstn_length; lia).
    assert (L2 : length (skipn 8 a) = 4%nat) by (rewrite skipn_length; lia).
    pose proof (dec_s_range (firstn 8 a) ltac:(lia)) as R1. pose proof (dec_u_range (skipn 8 a)) as R2.
    rewrite L1, half_8 in R1. rewrite L2, modulus_4 in R2.
    pose proof (enc_dec_s (firstn 8 a)) as E1. pose proof (enc_dec_u (skipn 8 a)) as E2.
    rewrite L1 in E1. rewrite L2 in E2.
    intros H. exists (dec_s (firstn 8 a)), (dec_u (skipn 8 a)), r.
    rewrite E1, E2, app_assoc, firstn_skipn, modulus_4.
    split; [reflexivity|]. split; [lia|]. split; [lia|]. cbn zeta.
    remember (dec_s (firstn 8 a)) as s eqn:Es. remember (dec_u (skipn 8 a)) as n eqn:En. clear Es En E1 E2.
    assert (B : 0 <= n / 1000000000 <= 4).
    { split; [apply Z.div_pos; lia|]. apply Z.lt_succ_r, Z.div_lt_upper_bound; lia. }
    revert H. destruct (Z.leb_spec (Z.abs s + n / 1000000000) 18446744073709551615); cbn [bind]; [|lia].
    intros HP X.
    assert (T : (if 0 <=? s then Z.abs s * 1000000000 + n else - (Z.abs s * 1000000000 + n)) =
                (if 0 <=? s then s * 1000000000 + n else s * 1000000000 - n)).
    { destruct (Z.leb_spec 0 s); lia. }
    rewrite T in HP. clear T.
    remember ((if 0 <=? s then s * 1000000000 + n else s * 1000000000 - n) / 1000000000) as q.
    destruct (Z.leb_spec (-(9223372036854775807 + 1)) q); [|lia].
    destruct (Z.leb_spec q 9223372036854775807); [|lia]. cbn in HP. discriminate.
  - intros (s & n & r & -> & Rs & Rn & H). cbn zeta in H. rewrite modulus_4 in Rn.
    rewrite app_assoc, get12. cbn [bind]. rewrite firstn_enc, skipn_enc.
    rewrite dec_u_enc by (rewrite ?modulus_4; lia). rewrite dec_s_enc by (rewrite ?half_8; lia).
    assert (B : 0 <= n / 1000000000 <= 4).
    { split; [apply Z.div_pos; lia|]. apply Z.lt_succ_r, Z.div_lt_upper_bound; lia. }
    destruct (Z.leb_spec (Z.abs s + n / 1000000000) 18446744073709551615); cbn [bind]; [|lia].
    assert (T : (if 0 <=? s then Z.abs s * 1000000000 + n else - (Z.abs s * 1000000000 + n)) =
                (if 0 <=? s then s * 1000000000 + n else s * 1000000000 - n)).
    { destruct (Z.leb_spec 0 s); lia. }
    rewrite T. clear T.
    remember ((if 0 <=? s then s * 1000000000 + n else s * 1000000000 - n) / 1000000000) as q.
    destruct (Z.leb_spec (-(9223372036854775807 + 1)) q); [|reflexivity].
    destruct (Z.leb_spec q 9223372036854775807); [lia|reflexivity].
Qed.
