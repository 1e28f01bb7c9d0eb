(** Canonical encodings, truncation, junk, unambiguity, stack depth, maps. *)
From Coq Require Import Sorting.Permutation.
From Verif Require Import Base Utf8 Utf8_Proofs Wire_Model Wire_Spec Wire_Proofs Wire_Proofs2 Wire_Proofs3.
Local Open Scope Z_scope.

(** * Canonical encodings *)

(** Types for which every accepted byte string is one the writer produces. *)
Definition plain (E : env) (t : ty) : Prop :=
  forall u, uses E t u ->
  match u with
  | TTimestamp | TDuration | TMap _ _ | TSet _ => False
  | TNamed n =>
    match defs E n with Some (DFlat _ _) | Some (DCustom _) => False | _ => True end
  | _ => True
  end.

Definition canon {A} (p : parser A) (w : A -> res bytes) : Prop :=
  forall bs a r, p bs = Ok (a, r) -> exists u, w a = Ok u /\ bs = u ++ r.

Lemma canon_len bs n r : get_len bs = Ok (n, r) ->
  put_len n = Ok (enc 4 (Z.of_nat n)) /\ bs = enc 4 (Z.of_nat n) ++ r.
Proof.
  unfold get_len. intros H. apply bind_ok in H as ([a r'] & Ha & H). cbn zeta in H.
  apply get_checked_ok in Ha as [-> L].
  pose proof (dec_s_range a ltac:(lia)) as R. rewrite L, half_4 in R.
  destruct (Z.ltb_spec (dec_s a) 0); [discriminate|]. injection H as <- <-.
  rewrite Z2Nat.id by lia. unfold put_len, i32_max. rewrite Z2Nat.id by lia.
  destruct (Z.leb_spec (dec_s a) 2147483647); [|lia].
  split; [reflexivity|]. f_equal. rewrite <- L. symmetry. apply enc_dec_s.
Qed.

Lemma canon_repeat {A} (p : parser A) w n : canon p w ->
  forall bs l r, repeat_read p n bs = Ok (l, r) ->
  length l = n /\ exists u, cat_res (map w l) = Ok u /\ bs = u ++ r.
Proof.
  intros Hp. induction n; cbn [repeat_read]; intros bs l r H.
  - injection H as <- <-. split; [reflexivity|]. exists []. auto.
  - apply bind_ok in H as ([a r1] & Ha & H). apply bind_ok in H as ([l' r2] & Hl & H).
    injection H as <- <-. apply Hp in Ha as (u & Hu & ->). apply IHn in Hl as (L & u' & Hu' & ->).
    split; [cbn; congruence|]. exists (u ++ u'). cbn. rewrite Hu. cbn [bind]. rewrite Hu'. cbn [bind].
    split; [reflexivity|apply app_assoc].
Qed.

Lemma canon_all E (p : ty -> parser val) ts : (forall t, In t ts -> canon (p t) (write E t)) ->
  canon (read_all p ts) (write_fields E ts).
Proof.
  induction ts as [|t ts IH]; intros Hp bs l r H; cbn [read_all] in H.
  - injection H as <- <-. exists []. auto.
  - apply bind_ok in H as ([a r1] & Ha & H). apply bind_ok in H as ([l' r2] & Hl & H).
    injection H as <- <-. apply Hp in Ha as (u & Hu & ->); [|cbn; auto].
    apply IH in Hl as (u' & Hu' & ->); [|intros; apply Hp; cbn; auto].
    exists (u ++ u'). cbn. rewrite Hu. cbn [bind]. rewrite Hu'. cbn [bind].
    split; [reflexivity|apply app_assoc].
Qed.

Lemma canon_read E d : forall t, plain E t -> canon (read E d t) (write E t).
Proof.
  induction d as [|d IH]; intros t HF bs v r H; [discriminate|].
  assert (SUB : forall u, (forall w, uses E u w -> uses E t w) -> canon (read E d u) (write E u)).
  { intros u Hu. apply IH. intros w Hw. apply HF, Hu, Hw. }
  pose proof (HF t (uses_refl E t)) as HT.
  destruct t; cbn [read] in H; cbn in HT; try contradiction.
  - destruct signed; apply bind_ok in H as ([a r1] & Ha & H); injection H as <- <-;
      apply get_checked_ok in Ha as [-> L]; exists a; (split; [|reflexivity]); cbn [write]; f_equal;
      rewrite <- L; [apply enc_dec_s|apply enc_dec_u].
  - apply bind_ok in H as ([a r1] & Ha & H); injection H as <- <-.
    apply get_checked_ok in Ha as [-> L]; exists a; split; [|reflexivity]. cbn [write]. f_equal.
    rewrite <- L; apply enc_dec_u.
  - apply bind_ok in H as ([a r1] & Ha & H). apply get_checked_ok in Ha as [-> L]. cbn zeta in H.
    pose proof (enc_dec_s a) as X. rewrite L in X.
    destruct (Z.eqb_spec (dec_s a) 0) as [e|].
    { injection H as <- <-. exists a. rewrite e in X. cbn [write]. now rewrite X. }
    destruct (Z.eqb_spec (dec_s a) 1) as [e|]; [|discriminate].
    injection H as <- <-. exists a. rewrite e in X. cbn [write]. now rewrite X.
  - apply bind_ok in H as ([s r1] & Ha & H). injection H as <- <-. unfold read_str in Ha.
    apply bind_ok in Ha as ([n r2] & Hn & Ha). apply bind_ok in Ha as ([s' r3] & Hs & Ha).
    destruct (utf8_valid s') eqn:V; [|discriminate]. injection Ha as <- <-.
    apply canon_len in Hn as [P ->]. apply get_checked_ok in Hs as [-> L].
    exists (enc 4 (Z.of_nat n) ++ s'). cbn [write]. unfold write_str. rewrite L, P. cbn [bind].
    split; [reflexivity|apply app_assoc].
  - apply bind_ok in H as ([a r1] & Ha & H). apply get_checked_ok in Ha as [-> L]. cbn zeta in H.
    pose proof (enc_dec_s a) as X. rewrite L in X.
    destruct (Z.eqb_spec (dec_s a) 0) as [e|].
    { injection H as <- <-. exists a. rewrite e in X. cbn [write]. now rewrite X. }
    destruct (Z.eqb_spec (dec_s a) 1) as [e|]; [|discriminate].
    apply bind_ok in H as ([v' r2] & Hv & H). injection H as <- <-.
    apply SUB in Hv as (u & Hu & ->); [|intros; now constructor].
    exists (a ++ u). rewrite e in X. cbn [write]. rewrite Hu. cbn [bind]. rewrite X.
    split; [reflexivity|apply app_assoc].
  - apply bind_ok in H as ([v' r2] & Hv & H). injection H as <- <-.
    apply SUB in Hv as (u & Hu & ->); [|intros; now constructor]. exists u. auto.
  - apply bind_ok in H as ([n r1] & Ha & H). apply bind_ok in H as ([vs r2] & Hv & H).
    injection H as <- <-. apply canon_len in Ha as [P ->].
    eapply canon_repeat in Hv as (L & u & Hu & ->); [|apply SUB; intros; now constructor].
    exists (enc 4 (Z.of_nat n) ++ u). cbn [write]. rewrite L, P. cbn [bind]. rewrite Hu. cbn [bind].
    split; [reflexivity|apply app_assoc].
  - destruct (defs E n) as [[ts|ne vs|k r'| |b]|] eqn:D; try contradiction; try discriminate.
    + apply bind_ok in H as ([fs r1] & Ha & H). injection H as <- <-.
      apply (canon_all E) in Ha as (u & Hu & ->);
        [|intros; apply SUB; intros; eapply uses_field; eauto].
      exists u. rewrite write_rec, D. auto.
    + apply bind_ok in H as ([a r1] & Ha & H). apply get_checked_ok in Ha as [-> L]. cbn zeta in H.
      destruct (Z.ltb_spec (dec_s a) 1); [discriminate|].
      destruct (nth_error vs (Z.to_nat (dec_s a - 1))) as [ts|] eqn:N; [|discriminate].
      apply bind_ok in H as ([fs r2] & Hf & H). injection H as <- <-.
      apply (canon_all E) in Hf as (u & Hu & ->);
        [|intros; apply SUB; intros; eapply uses_variant; eauto using nth_error_In].
      exists (a ++ u). rewrite write_enum, D, N, Hu. cbn [bind].
      pose proof (enc_dec_s a) as X. rewrite L in X.
      replace (Z.of_nat (Z.to_nat (dec_s a - 1)) + 1) with (dec_s a) by lia.
      rewrite X. split; [reflexivity|apply app_assoc].
    + apply bind_ok in H as ([a r1] & Ha & H). injection H as <- <-.
      apply get_checked_ok in Ha as [-> L]. exists a. cbn [write]. rewrite D.
      pose proof (enc_dec_u a) as X. rewrite L in X. rewrite X. auto.
Qed.

(** * Truncation, junk, unambiguity *)

Lemma truncated_not_ok E t v bs p x d d' r0 v' r' :
  read E d t bs = Ok (v, r0) -> r0 = [] -> bs = p ++ x -> x <> [] ->
  read E d' t p <> Ok (v', r').
Proof.
  intros H -> -> N H'.
  assert (H1 : read E (Nat.max d d') t (p ++ x) = Ok (v, [])).
  { rewrite (read_deeper E d) by (try lia; congruence). exact H. }
  assert (H2 : read E (Nat.max d d') t p = Ok (v', r')).
  { rewrite (read_deeper E d') by (try lia; congruence). exact H'. }
  apply (read_ext _ _ _ _ _ _ x) in H2. rewrite H1 in H2. injection H2 as _ H2.
  symmetry in H2. apply app_eq_nil in H2. tauto.
Qed.

Lemma truncated_err E t v bs p x d :
  no_flat E t -> read E d t bs = Ok (v, []) -> bs = p ++ x -> x <> [] -> lift_buffer E d t p = Err.
Proof.
  intros NF H -> N. unfold lift_buffer.
  pose proof (local_read true E d t (fun _ => NF) p x) as L.
  destruct (read E d t p) as [[v' r']| | |] eqn:R; cbn [bind]; try reflexivity.
  - exfalso. exact (truncated_not_ok E t v (p ++ x) p x d d [] v' r' H eq_refl eq_refl N R).
  - rewrite (L eq_refl) in H. discriminate.
  - rewrite (L eq_refl) in H. discriminate.
Qed.

Lemma junk_err E d t bs v x :
  lift_buffer E d t bs = Ok v -> x <> [] -> lift_buffer E d t (bs ++ x) = Err.
Proof.
  unfold lift_buffer. intros H N. apply bind_ok in H as ([v' r] & R & H).
  destruct r; [|discriminate]. injection H as ->. rewrite (read_ext _ _ _ _ _ _ x R). cbn.
  destruct x; congruence.
Qed.

Lemma write_prefix_free E t v1 v2 b1 b2 r1 r2 :
  has_type E t v1 -> has_type E t v2 -> all_carried E v1 -> all_carried E v2 ->
  write E t v1 = Ok b1 -> write E t v2 = Ok b2 -> b1 ++ r1 = b2 ++ r2 -> v1 = v2 /\ r1 = r2.
Proof.
  intros T1 T2 C1 C2 W1 W2 EQ.
  pose proof (read_write E v1 t b1 r1 (Nat.max (vdepth v1) (vdepth v2)) T1 C1 W1 ltac:(lia)) as R1.
  pose proof (read_write E v2 t b2 r2 (Nat.max (vdepth v1) (vdepth v2)) T2 C2 W2 ltac:(lia)) as R2.
  rewrite EQ in R1. rewrite R1 in R2. injection R2 as -> ->. auto.
Qed.

Lemma write_all_injective E ts : forall vs1 vs2 bss1 bss2,
  Forall2 (has_type E) ts vs1 -> Forall2 (has_type E) ts vs2 ->
  Forall (all_carried E) vs1 -> Forall (all_carried E) vs2 ->
  Forall2 (fun tv b => write E (fst tv) (snd tv) = Ok b) (combine ts vs1) bss1 ->
  Forall2 (fun tv b => write E (fst tv) (snd tv) = Ok b) (combine ts vs2) bss2 ->
  concat bss1 = concat bss2 -> vs1 = vs2.
Proof.
  induction ts as [|t ts IH]; intros vs1 vs2 bss1 bss2 T1 T2 C1 C2 W1 W2 EQ;
    inversion T1; subst; inversion T2; subst; [reflexivity|].
  inversion C1; subst. inversion C2; subst. cbn in W1, W2.
  inversion W1; subst. inversion W2; subst. cbn in EQ. cbn [fst snd] in *.
  edestruct (write_prefix_free E t) as [-> EQ'].
  5,6: eassumption. 1-4: assumption. 1: exact EQ.
  f_equal. eapply IH; eauto.
Qed.

(** * Stack depth *)

(** [r n] bounds the nesting of values of the named type [n]. *)
Fixpoint tdepth (r : string -> nat) (t : ty) : nat :=
  match t with
  | TOption t' | TBox t' | TVec t' | TSet t' => S (tdepth r t')
  | TMap k v => S (Nat.max (tdepth r k) (tdepth r v))
  | TNamed n => r n
  | _ => 1%nat
  end.

Definition ranked (E : env) (r : string -> nat) : Prop :=
  forall n, (1 <= r n)%nat /\
  match defs E n with
  | Some (DRecord ts) => forall t, In t ts -> (S (tdepth r t) <= r n)%nat
  | Some (DEnum _ vs) => forall ts t, In ts vs -> In t ts -> (S (tdepth r t) <= r n)%nat
  | Some (DCustom b) => (S (tdepth r b) <= r n)%nat
  | _ => True
  end.

Notation nodeep := (avoids Deep).

Lemma bind_deep {A B} (x : res A) (f : A -> res B) :
  bind x f = Deep -> x = Deep \/ exists a, x = Ok a /\ f a = Deep.
Proof. destruct x; cbn; intros H; try discriminate; eauto. Qed.

Lemma nodeep_bind {A B} (p : parser A) (k : A * bytes -> res (B * bytes)) :
  nodeep p -> (forall a, nodeep (fun r => k (a, r))) -> nodeep (fun bs => bind (p bs) k).
Proof.
  intros Hp Hk bs H. apply bind_deep in H as [H|[[a r] [_ H]]].
  - exact (Hp bs H).
  - exact (Hk a r H).
Qed.
Lemma nodeep_ret {A} (a : A) : nodeep (fun r => Ok (a, r)).
Proof. intros bs. discriminate. Qed.
Lemma nodeep_err {A} : nodeep (fun _ => @Err (A * bytes)).
Proof. intros bs. discriminate. Qed.
Lemma nodeep_get k : nodeep (get_checked k).
Proof. intros bs. unfold get_checked. destruct (split_n k bs); discriminate. Qed.
Lemma nodeep_getu k : nodeep (get_unchecked k).
Proof. intros bs. unfold get_unchecked. destruct (split_n k bs); discriminate. Qed.
Lemma nodeep_len : nodeep get_len.
Proof.
  unfold get_len. apply nodeep_bind; [apply nodeep_get|]. intros a.
  destruct (dec_s a <? 0); [apply nodeep_err|apply nodeep_ret].
Qed.
Lemma nodeep_repeat {A} (p : parser A) n : nodeep p -> nodeep (repeat_read p n).
Proof.
  intros Hp. induction n; cbn [repeat_read]; [apply nodeep_ret|].
  apply nodeep_bind; [exact Hp|]. intros a.
  apply nodeep_bind; [exact IHn|]. intros l. apply nodeep_ret.
Qed.
Lemma nodeep_all {A B} (p : A -> parser B) ts :
  (forall t, In t ts -> nodeep (p t)) -> nodeep (read_all p ts).
Proof.
  induction ts as [|t ts IH]; intros Hp; cbn [read_all]; [apply nodeep_ret|].
  apply nodeep_bind; [apply Hp; cbn; auto|]. intros a.
  apply nodeep_bind; [apply IH; intros; apply Hp; cbn; auto|]. intros l. apply nodeep_ret.
Qed.

Lemma read_nodeep E r d : ranked E r -> (forall n v, clift E n v <> Deep) ->
  forall t, (tdepth r t <= d)%nat -> nodeep (read E d t).
Proof.
  intros RK CL. induction d as [|d IH]; intros t HD.
  { destruct t; cbn in HD; try lia. destruct (RK n) as [X _]. lia. }
  destruct t; cbn [read]; cbn [tdepth] in HD.
  - destruct signed; (apply nodeep_bind; [apply nodeep_get|intros a; apply nodeep_ret]).
  - apply nodeep_bind; [apply nodeep_get|intros a; apply nodeep_ret].
  - apply nodeep_bind; [apply nodeep_get|intros a].
    destruct (dec_s a =? 0); [apply nodeep_ret|].
    destruct (dec_s a =? 1); [apply nodeep_ret|apply nodeep_err].
  - apply nodeep_bind; [|intros a; apply nodeep_ret].
    unfold read_str. apply nodeep_bind; [apply nodeep_len|intros n].
    apply nodeep_bind; [apply nodeep_get|]. intros a.
    destruct (utf8_valid a); [apply nodeep_ret|apply nodeep_err].
  - apply nodeep_bind; [|intros a; apply nodeep_ret].
    unfold read_time. apply nodeep_bind; [apply nodeep_get|]. intros a bs.
    unfold duration_new. match goal with |- context [if ?c then Ok _ else _] => destruct c end; cbn; [|discriminate].
    match goal with |- context [time_in_range ?c] => destruct (time_in_range c) end; discriminate.
  - apply nodeep_bind; [|intros a; apply nodeep_ret].
    unfold read_dur. apply nodeep_bind; [apply nodeep_get|]. intros a bs.
    unfold duration_new. match goal with |- context [if ?c then _ else _] => destruct c end; discriminate.
  - apply nodeep_bind; [apply nodeep_get|intros a].
    destruct (dec_s a =? 0); [apply nodeep_ret|].
    destruct (dec_s a =? 1); [|apply nodeep_err].
    apply nodeep_bind; [|intros v; apply nodeep_ret]. apply IH. lia.
  - apply nodeep_bind; [|intros v; apply nodeep_ret]. apply IH. lia.
  - apply nodeep_bind; [apply nodeep_len|intros n].
    apply nodeep_bind; [|intros v; apply nodeep_ret]. apply nodeep_repeat. apply IH. lia.
  - apply nodeep_bind; [apply nodeep_len|intros n].
    apply nodeep_bind; [|intros v; apply nodeep_ret]. apply nodeep_repeat.
    unfold read_pair. apply nodeep_bind; [apply IH; lia|]. intros a.
    apply nodeep_bind; [apply IH; lia|]. intros b. apply nodeep_ret.
  - apply nodeep_bind; [apply nodeep_len|intros n].
    apply nodeep_bind; [|intros v; apply nodeep_ret]. apply nodeep_repeat. apply IH. lia.
  - destruct (RK n) as [R1 R2].
    destruct (defs E n) as [[ts|ne vs|k [|]| |b]|] eqn:D; [..|apply nodeep_err].
    + apply nodeep_bind; [|intros v; apply nodeep_ret]. apply nodeep_all. intros t Ht.
      apply IH. specialize (R2 t Ht). lia.
    + apply nodeep_bind; [apply nodeep_get|intros a].
      destruct (dec_s a <? 1); [apply nodeep_err|].
      destruct (nth_error vs (Z.to_nat (dec_s a - 1))) as [ts|] eqn:N; [|apply nodeep_err].
      apply nodeep_bind; [|intros v; apply nodeep_ret]. apply nodeep_all. intros t Ht.
      apply IH. specialize (R2 ts t (nth_error_In _ _ N) Ht). lia.
    + apply nodeep_bind; [apply nodeep_getu|intros a].
      destruct (_ && _); [apply nodeep_ret|apply nodeep_err].
    + intros bs. discriminate.
    + apply nodeep_bind; [apply nodeep_get|intros a; apply nodeep_ret].
    + apply nodeep_bind; [apply IH; lia|]. intros v r'.
      specialize (CL n v). destruct (clift E n v); cbn; congruence.
Qed.

(** * Maps with repeated keys, in any order *)

Lemma read_map_any E tk tv kvs bs rest d :
  Forall (fun p => has_type E tk (fst p) /\ has_type E tv (snd p) /\
                   all_carried E (fst p) /\ all_carried E (snd p) /\
                   (vdepth (fst p) <= d /\ vdepth (snd p) <= d)%nat) kvs ->
  write E (TMap tk tv) (VMap kvs) = Ok bs ->
  read E (S d) (TMap tk tv) (bs ++ rest) = Ok (VMap (build_map kvs), rest).
Proof.
  intros F HW. cbn [write] in HW. apply bind_ok in HW as (hd & Hh & HW).
  apply bind_ok in HW as (b & Hb & [= <-]). apply put_len_ok in Hh as [-> HL].
  cbn [read]. rewrite <- app_assoc, get_len_enc by assumption. cbn [bind].
  erewrite (repeat_read_cat (read_pair (read E d tk) (read E d tv)) _ kvs); [reflexivity|clear Hb|exact Hb].
  rewrite Forall_forall in *. intros [k v] Hkv b' r Hb'. cbn [fst snd] in *.
  destruct (F _ Hkv) as (Tk & Tv & Ck & Cv & Dk & Dv). cbn [fst snd] in *.
  apply bind_ok in Hb' as (bk & Hk & Hb'). apply bind_ok in Hb' as (bv & Hv & [= <-]).
  unfold read_pair. rewrite <- app_assoc.
  rewrite (read_write E k tk bk (bv ++ r) d); auto. cbn [bind].
  now rewrite (read_write E v tv bv r d).
Qed.

Lemma read_set_any E t vs bs rest d :
  Forall (fun v => has_type E t v /\ all_carried E v /\ (vdepth v <= d)%nat) vs ->
  write E (TSet t) (VSet vs) = Ok bs ->
  read E (S d) (TSet t) (bs ++ rest) = Ok (VSet (build_set vs), rest).
Proof.
  intros F HW. cbn [write] in HW. apply bind_ok in HW as (hd & Hh & HW).
  apply bind_ok in HW as (b & Hb & [= <-]). apply put_len_ok in Hh as [-> HL].
  cbn [read]. rewrite <- app_assoc, get_len_enc by assumption. cbn [bind].
  rewrite (repeat_read_cat (read E d t) (write E t) vs); [reflexivity|clear Hb|exact Hb].
  rewrite Forall_forall in *. intros v Hv b' r Hb'. destruct (F _ Hv) as (T & C & D).
  now apply read_write.
Qed.

(** The bytes of a timestamp strictly inside the second before 1970. *)
Lemma time_mirrored t rest : -1000000000 < t < 0 ->
  exists bs, write_time t = Ok bs /\ read_time (bs ++ rest) = Ok (- t, rest).
Proof.
  intros H. exists (enc 8 0 ++ enc 4 (- t)). split.
  - unfold write_time. replace (Z.abs t) with (- t) by lia.
    replace (- t / nanos_per_sec) with 0
      by (unfold nanos_per_sec; rewrite Z.div_small by lia; reflexivity).
    replace (- t mod nanos_per_sec) with (- t)
      by (unfold nanos_per_sec; rewrite Z.mod_small by lia; reflexivity).
    rewrite Z.mul_0_r. reflexivity.
  - apply write_time_read; [| lia |].
    + rewrite Z.div_small by lia. rewrite half_8. lia.
    + unfold write_time. replace (Z.abs (- t)) with (- t) by lia.
      replace (- t / nanos_per_sec) with 0
        by (unfold nanos_per_sec; rewrite Z.div_small by lia; reflexivity).
      replace (- t mod nanos_per_sec) with (- t)
        by (unfold nanos_per_sec; rewrite Z.mod_small by lia; reflexivity).
      rewrite Z.mul_0_r. reflexivity.
Qed.

(** Enum tags. *)
Lemma enum_tag_bad E n ne variants z rest d :
  defs E n = Some (DEnum ne variants) -> - half 4 <= z < half 4 ->
  ~ (1 <= z <= Z.of_nat (length variants)) ->
  read E (S d) (TNamed n) (enc 4 z ++ rest) = Err.
Proof.
  intros D R N. cbn [read]. rewrite D, get_checked_enc. cbn [bind].
  rewrite dec_s_enc by (auto with arith; lia).
  destruct (Z.ltb_spec z 1); [reflexivity|].
  destruct (nth_error variants (Z.to_nat (z - 1))) eqn:X; [|reflexivity].
  assert (Z.to_nat (z - 1) < length variants)%nat by (apply nth_error_Some; congruence). lia.
Qed.

Lemma enum_tag_good E n ne variants z rest d v r :
  defs E n = Some (DEnum ne variants) -> - half 4 <= z < half 4 ->
  read E d (TNamed n) (enc 4 z ++ rest) = Ok (v, r) ->
  1 <= z <= Z.of_nat (length variants) /\ exists vs, v = VEnum (Z.to_nat (z - 1)) vs.
Proof.
  intros D R H. destruct d as [|d]; [discriminate|].
  destruct (Z_le_dec 1 z) as [L1|L1]; [destruct (Z_le_dec z (Z.of_nat (length variants))) as [L2|L2]|].
  - split; [lia|]. cbn [read] in H. rewrite D, get_checked_enc in H. cbn [bind] in H.
    rewrite dec_s_enc in H by (auto with arith; lia).
    destruct (Z.ltb_spec z 1); [discriminate|].
    destruct (nth_error variants (Z.to_nat (z - 1))); [|discriminate].
    apply bind_ok in H as ([vs r2] & _ & H). injection H as <- <-. eauto.
  - rewrite (enum_tag_bad E n ne variants z rest d) in H; [discriminate|assumption..|lia].
  - rewrite (enum_tag_bad E n ne variants z rest d) in H; [discriminate|assumption..|lia].
Qed.
