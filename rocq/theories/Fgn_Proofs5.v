(** Consequences of the agreement theorems: instants and durations on their own,
    and the values that Rust reads back. *)
From Verif Require Import Base Utf8 Utf8_Proofs Wire_Model Wire_Spec Wire_Proofs Wire_Proofs5
  Fgn_Model Fgn_Spec Fgn_Proofs Fgn_Proofs2 Fgn_Proofs3 Fgn_Proofs4.
Local Open Scope Z_scope.

Lemma understood_reads R E d t f bs v : understood R E d t f bs v ->
  has_type E t v /\ same R E t v f /\ write E t v = Ok bs /\
  (all_carried E v -> rust_reads E t bs v).
Proof.
  intros (T & S' & W & _). split; [exact T|]. split; [exact S'|]. split; [exact W|].
  intros C dd rest D. exact (read_write E v t bs rest dd T C W D).
Qed.

Lemma py_pred_true f : fwf py_leaf f -> fwf (py_pred true) f.
Proof. intros H g I. destruct (H g I) as [A B]. split; [split; [exact A|discriminate]|exact B]. Qed.

Lemma py_pred_false f : fwf py_leaf f -> no_neg_dur f -> fwf (py_pred false) f.
Proof.
  intros H N g I. destruct (H g I) as [A B]. split; [split; [exact A|intros _]|exact B].
  destruct g; try exact Coq.Init.Logic.I. exact (N _ I).
Qed.

Theorem python_to_rust E h d t f bs :
  fwrite (python E h true) E d t f = Ok bs -> fwf py_leaf f -> no_f32_keys E t ->
  exists v, has_type E t v /\ same py_from E t v f /\ write E t v = Ok bs /\
            (all_carried E v -> rust_reads E t bs v).
Proof.
  intros H W K. destruct (py_writes E h true d t f bs H (py_pred_true f W) K) as [v U].
  exists v. exact (understood_reads _ _ _ _ _ _ _ U).
Qed.

Theorem python_returns_to_rust E h d t f bs :
  fwrite (python E h false) E d t f = Ok bs -> fwf py_leaf f -> no_neg_dur f -> no_f32_keys E t ->
  exists v, has_type E t v /\ same py_from E t v f /\ write E t v = Ok bs /\
            (all_carried E v -> rust_reads E t bs v).
Proof.
  intros H W N K. destruct (py_writes E h false d t f bs H (py_pred_false f W N) K) as [v U].
  exists v. exact (understood_reads _ _ _ _ _ _ _ U).
Qed.

Theorem kotlin_to_rust E d t f bs :
  fwrite kotlin E d t f = Ok bs -> fwf kt_leaf f ->
  exists v, has_type E t v /\ same kt_from E t v f /\ write E t v = Ok bs /\
            (all_carried E v -> rust_reads E t bs v).
Proof.
  intros H W. destruct (kt_writes E d t f bs H W) as [v U].
  exists v. exact (understood_reads _ _ _ _ _ _ _ U).
Qed.

Theorem ruby_to_rust E d t f bs :
  fwrite ruby E d t f = Ok bs -> fwf rb_leaf f -> no_f32_keys E t ->
  exists v, has_type E t v /\ same rb_from E t v f /\ write E t v = Ok bs /\
            (all_carried E v -> rust_reads E t bs v).
Proof.
  intros H W K. destruct (rb_writes E d t f bs H W K) as [v U].
  exists v. exact (understood_reads _ _ _ _ _ _ _ U).
Qed.

Theorem rust_to_python E h c v t bs :
  has_type E t v -> plain_options E t -> key_types E (py_keys E h) t -> leaves E py_leaf_of t v ->
  no_lost_instant v -> write E t v = Ok bs ->
  exists f, same (py_to E h) E t v f /\ foreign_reads (python E h c) E t (vdepth v) bs f.
Proof.
  intros T P K L N W. destruct (py_total E h t v P K T L) as [f S']. exists f. split; [exact S'|].
  intros d rest D. exact (py_reads E h c v t f bs rest d S' T N W D).
Qed.

Theorem rust_to_kotlin E v t bs :
  has_type E t v -> plain_options E t -> leaves E kt_leaf_of t v ->
  no_lost_instant v -> write E t v = Ok bs ->
  exists f, same kt_to E t v f /\ foreign_reads kotlin E t (vdepth v) bs f.
Proof.
  intros T P L N W. destruct (kt_total E t v P T L) as [f S']. exists f. split; [exact S'|].
  intros d rest D. exact (kt_reads E v t f bs rest d S' T N W D).
Qed.

Theorem rust_to_ruby E v t bs :
  has_type E t v -> plain_options E t -> leaves E rb_leaf_of t v ->
  no_lost_instant v -> write E t v = Ok bs ->
  exists f, same rb_to E t v f /\ foreign_reads ruby E t (vdepth v) bs f.
Proof.
  intros T P L N W. destruct (rb_total E t v P T L) as [f S']. exists f. split; [exact S'|].
  intros d rest D. exact (rb_reads E v t f bs rest d S' T N W D).
Qed.

(** * Instants *)

Lemma fread_time L E d t bs rest : write E TTimestamp (VTime t) = Ok bs ->
  fread L E (S d) TTimestamp (bs ++ rest) =
  (let* x := t_read L (t_secs t) (t_nanos t) in Ok (FTime x, rest)).
Proof.
  intros HW. cbn [write] in HW. unfold write_time in HW.
  destruct (Z.leb_spec (Z.abs t / nanos_per_sec) i64_max) as [Lm|]; [|discriminate].
  injection HW as <-. cbn [fread]. rewrite get12. cbn [bind]. rewrite firstn_enc, skipn_enc.
  unfold nanos_per_sec in *.
  assert (0 <= Z.abs t / 1000000000) by (apply Z.div_pos; lia).
  pose proof (Z.mod_pos_bound (Z.abs t) 1000000000 ltac:(lia)).
  rewrite dec_s_enc; [|lia|unfold i64_max in Lm; rewrite half_8; destruct (0 <=? t); lia].
  rewrite dec_u_enc by (rewrite modulus_4; lia). reflexivity.
Qed.

Lemma fread_dur L E d t bs rest : 0 <= t / 1000000000 < modulus 8 ->
  write E TDuration (VDur t) = Ok bs ->
  fread L E (S d) TDuration (bs ++ rest) =
  (let* x := d_read L (t / 1000000000) (t mod 1000000000) in Ok (FDur x, rest)).
Proof.
  intros B HW. cbn [write] in HW. unfold write_dur in HW. injection HW as <-.
  cbn [fread]. rewrite get12. cbn [bind]. rewrite firstn_enc, skipn_enc. unfold nanos_per_sec.
  pose proof (Z.mod_pos_bound t 1000000000 ltac:(lia)).
  rewrite !dec_u_enc by (rewrite ?modulus_4; lia || assumption). reflexivity.
Qed.

Lemma rust_reads_1 E t bs v : vdepth v = 1%nat ->
  (forall d rest, read E (S d) t (bs ++ rest) = Ok (v, rest)) -> rust_reads E t bs v.
Proof. intros V H [|d] rest D; [lia|apply H]. Qed.

Lemma write_secs_nanos E t : Z.abs t / 1000000000 <= i64_max ->
  write E TTimestamp (VTime t) = Ok (enc 8 (t_secs t) ++ enc 4 (t_nanos t)).
Proof. intros B. exact (proj2 (write_time_parts t B)). Qed.

Lemma rust_time E t bs : Z.abs t / 1000000000 <= i64_max -> ~ (-1000000000 < t < 0) ->
  bs = enc 8 (t_secs t) ++ enc 4 (t_nanos t) -> rust_reads E TTimestamp bs (VTime t).
Proof.
  intros B N ->. apply rust_reads_1; [reflexivity|]. intros d rest.
  apply timestamp_roundtrip; [exact (proj1 (write_time_parts t B))|exact N|exact (write_secs_nanos E t B)].
Qed.

Lemma rust_time_lost E t bs : -1000000000 < t < 0 ->
  bs = enc 8 (t_secs t) ++ enc 4 (t_nanos t) -> rust_reads E TTimestamp bs (VTime (- t)).
Proof.
  intros N ->. apply rust_reads_1; [reflexivity|]. intros d rest.
  destruct (timestamp_mirrored E t d rest N) as (bs & W & R & _). rewrite write_secs_nanos in W; [congruence|].
  rewrite Z.div_small by lia. vm_compute. congruence.
Qed.

Lemma small_secs t : -1000000000 < t < 0 -> t_secs t = 0 /\ t_nanos t = - t.
Proof.
  intros N. unfold t_secs, t_nanos. rewrite Z.abs_neq by lia.
  rewrite Z.div_small, Z.mod_small by lia. lia.
Qed.

(** ** Python *)

Theorem py_instant_from_rust E h c t d rest bs : ~ (-1000000000 < t < 0) ->
  write E TTimestamp (VTime t) = Ok bs ->
  exists x, nearest_us t x /\
  fread (python E h c) E (S d) TTimestamp (bs ++ rest) =
  if (py_time_min <=? x) && (x <=? py_time_max) then Ok (FTime x, rest) else Err.
Proof.
  intros N W. rewrite (fread_time _ E d t bs rest W). cbn [t_read python].
  destruct (parts_abs t) as (q & m & A & Q & M & S1 & S2 & _).
  exists (if 0 <=? t then q * 1000000 + rhe m 1000 else - (q * 1000000 + rhe m 1000)). split.
  - destruct (Z.leb_spec 0 t).
    + replace t with (q * 1000000000 + m) by lia. apply nearest_parts.
    + replace t with (- (q * 1000000000 + m)) by lia. apply nearest_neg, nearest_parts.
  - unfold py_t_read. rewrite S1, S2.
    replace (if 0 <=? (if 0 <=? t then q else - q)
             then Z.abs (if 0 <=? t then q else - q) * 1000000 + rhe m 1000
             else - (Z.abs (if 0 <=? t then q else - q) * 1000000 + rhe m 1000))
      with (if 0 <=? t then q * 1000000 + rhe m 1000 else - (q * 1000000 + rhe m 1000)).
    + destruct ((py_time_min <=? _) && _); reflexivity.
    + destruct (Z.leb_spec 0 t).
      * destruct (Z.leb_spec 0 q); [|lia]. now rewrite Z.abs_eq by lia.
      * destruct (Z.leb_spec 0 (- q)); [lia|]. rewrite Z.abs_neq by lia. lia.
Qed.

Theorem py_instant_lost E h c t d rest : -1000000000 < t < 0 ->
  exists bs x, write E TTimestamp (VTime t) = Ok bs /\ nearest_us (- t) x /\
  fread (python E h c) E (S d) TTimestamp (bs ++ rest) = Ok (FTime x, rest).
Proof.
  intros N. assert (B : Z.abs t / 1000000000 <= i64_max) by (rewrite Z.div_small by lia; vm_compute; congruence).
  exists (enc 8 (t_secs t) ++ enc 4 (t_nanos t)), (rhe (- t) 1000).
  split; [exact (write_secs_nanos E t B)|]. split; [exact (nearest_parts 0 (- t))|].
  rewrite (fread_time _ E d t _ rest (write_secs_nanos E t B)). cbn [t_read python].
  destruct (small_secs t N) as [-> ->]. unfold py_t_read. cbn [Z.abs Z.leb Z.compare].
  replace (0 * 1000000 + rhe (- t) 1000) with (rhe (- t) 1000) by lia.
  pose proof (rhe_half (- t) 1000 ltac:(lia)).
  unfold py_time_min, py_time_max.
  destruct (Z.leb_spec (-62135596800 * 1000000) (rhe (- t) 1000)); [|lia].
  destruct (Z.leb_spec (rhe (- t) 1000) (253402300799 * 1000000 + 999999)); [reflexivity|lia].
Qed.

Lemma py_range x : py_time_min <= x <= py_time_max -> Z.abs (1000 * x) / 1000000000 <= i64_max.
Proof.
  unfold py_time_min, py_time_max, i64_max. intros B. apply Z.div_le_upper_bound; lia.
Qed.

Lemma py_write_time E h c d x : fwrite (python E h c) E (S d) TTimestamp (FTime x) =
  Ok (enc 8 (t_secs (1000 * x)) ++ enc 4 (t_nanos (1000 * x))).
Proof. cbn [fwrite t_write python]. rewrite py_t_write_parts. reflexivity. Qed.

Theorem py_instant_to_rust E h c d x : py_time_min <= x <= py_time_max -> ~ (-1000000 < x < 0) ->
  exists bs, fwrite (python E h c) E (S d) TTimestamp (FTime x) = Ok bs /\
             rust_reads E TTimestamp bs (VTime (1000 * x)).
Proof.
  intros B N. eexists. split; [apply py_write_time|].
  apply rust_time; [exact (py_range x B)|lia|reflexivity].
Qed.

Theorem py_instant_to_rust_lost E h c d x : -1000000 < x < 0 ->
  exists bs, fwrite (python E h c) E (S d) TTimestamp (FTime x) = Ok bs /\
             rust_reads E TTimestamp bs (VTime (- (1000 * x))).
Proof.
  intros N. eexists. split; [apply py_write_time|]. apply rust_time_lost; [lia|reflexivity].
Qed.

Theorem py_duration_from_rust E h c t d rest bs : 0 <= t / 1000000000 < modulus 8 ->
  write E TDuration (VDur t) = Ok bs ->
  exists x, nearest_us t x /\
  fread (python E h c) E (S d) TDuration (bs ++ rest) =
  if x <=? py_delta_max then Ok (FDur x, rest) else Err.
Proof.
  intros B W. rewrite (fread_dur _ E d t bs rest B W). cbn [d_read python]. unfold py_d_read.
  exists (t / 1000000000 * 1000000 + rhe (t mod 1000000000) 1000). split.
  - pose proof (nearest_parts (t / 1000000000) (t mod 1000000000)) as P.
    replace (t / 1000000000 * 1000000000 + t mod 1000000000) with t in P; [exact P|].
    rewrite Z.mul_comm. apply Z.div_mod. lia.
  - destruct (_ <=? py_delta_max); reflexivity.
Qed.

Lemma rust_dur E t : 0 <= t / 1000000000 < modulus 8 ->
  rust_reads E TDuration (enc 8 (t / 1000000000) ++ enc 4 (t mod 1000000000)) (VDur t).
Proof.
  intros B d rest D. refine (read_write E (VDur t) TDuration _ rest d _ _ eq_refl D).
  - now constructor.
  - intros u [<-|[]]. exact I.
Qed.

Lemma us_secs_nonneg x : 0 <= x -> 0 <= x / 1000000.
Proof. intros H. apply Z.div_pos; lia. Qed.

Theorem py_duration_to_rust E h c d x : py_delta_min <= x <= py_delta_max -> 0 <= x ->
  exists bs, fwrite (python E h c) E (S d) TDuration (FDur x) = Ok bs /\
             rust_reads E TDuration bs (VDur (1000 * x)).
Proof.
  intros B P. cbn [fwrite d_write python]. unfold py_d_write.
  pose proof (us_secs_nonneg x P).
  destruct (Z.ltb_spec (x / 1000000) 0); [lia|]. rewrite andb_false_r. cbn [bind].
  eexists. split; [reflexivity|]. rewrite (Z.mul_comm (x mod 1000000)), <- us_mod, <- us_div.
  apply rust_dur. rewrite us_div, modulus_8. split; [lia|]. unfold py_delta_max in B.
  apply Z.div_lt_upper_bound; lia.
Qed.

Theorem py_duration_negative E h d x : x < 0 ->
  fwrite (python E h true) E (S d) TDuration (FDur x) = Err.
Proof.
  intros N. cbn [fwrite d_write python]. unfold py_d_write.
  assert (x / 1000000 < 0) by (apply Z.div_lt_upper_bound; lia).
  destruct (Z.ltb_spec (x / 1000000) 0); [reflexivity|lia].
Qed.

Lemma enc_wrap n z : enc n (z + modulus n) = enc n z.
Proof.
  assert (X : dec_u (enc n (z + modulus n)) = dec_u (enc n z)).
  { rewrite !dec_u_enc_mod. rewrite <- (Z.mul_1_l (modulus n)) at 1. apply Z_mod_plus_full. }
  rewrite <- (enc_dec_u (enc n (z + modulus n))), <- (enc_dec_u (enc n z)), X, !enc_length. reflexivity.
Qed.

Theorem py_duration_returned_negative E h d x : py_delta_min <= x < 0 ->
  exists bs, fwrite (python E h false) E (S d) TDuration (FDur x) = Ok bs /\
             rust_reads E TDuration bs (VDur (1000 * x + modulus 8 * 1000000000)).
Proof.
  intros B. cbn [fwrite d_write python]. unfold py_d_write. cbn [andb bind].
  eexists. split; [reflexivity|]. rewrite (Z.mul_comm (x mod 1000000)), <- us_mod.
  rewrite <- enc_wrap.
  replace (x / 1000000 + modulus 8) with ((1000 * x + modulus 8 * 1000000000) / 1000000000)
    by (rewrite Z.div_add, us_div by lia; reflexivity).
  replace ((1000 * x) mod 1000000000) with ((1000 * x + modulus 8 * 1000000000) mod 1000000000)
    by (now rewrite Z_mod_plus_full).
  apply rust_dur. rewrite Z.div_add, us_div by lia. unfold py_delta_min in B. rewrite modulus_8.
  assert (x / 1000000 < 0) by (apply Z.div_lt_upper_bound; lia).
  assert (-999999999 * 86400 <= x / 1000000) by (apply Z.div_le_lower_bound; lia). lia.
Qed.

(** ** Kotlin *)

Theorem kt_instant_from_rust E t d rest bs : ~ (-1000000000 < t < 0) ->
  write E TTimestamp (VTime t) = Ok bs ->
  fread kotlin E (S d) TTimestamp (bs ++ rest) =
  if (kt_time_min <=? t) && (t <=? kt_time_max) then Ok (FTime t, rest) else Err.
Proof.
  intros N W. rewrite (fread_time _ E d t bs rest W). cbn [t_read kotlin].
  destruct (parts_abs t) as (q & m & A & Q & M & S1 & S2 & _).
  unfold kt_t_read, i32_max. rewrite S1, S2. destruct (Z.ltb_spec 2147483647 m); [lia|].
  assert (X : (if 0 <=? (if 0 <=? t then q else - q)
               then (if 0 <=? t then q else - q) * 1000000000 + m
               else - (- (if 0 <=? t then q else - q) * 1000000000 + m)) = t).
  { destruct (Z.leb_spec 0 t).
    - destruct (Z.leb_spec 0 q); lia.
    - destruct (Z.leb_spec 0 (- q)); lia. }
  cbv zeta. rewrite X. destruct ((kt_time_min <=? t) && _); reflexivity.
Qed.

Theorem kt_instant_lost E t d rest : -1000000000 < t < 0 ->
  exists bs, write E TTimestamp (VTime t) = Ok bs /\
  fread kotlin E (S d) TTimestamp (bs ++ rest) = Ok (FTime (- t), rest).
Proof.
  intros N. assert (B : Z.abs t / 1000000000 <= i64_max) by (rewrite Z.div_small by lia; vm_compute; congruence).
  exists (enc 8 (t_secs t) ++ enc 4 (t_nanos t)).
  split; [exact (write_secs_nanos E t B)|].
  rewrite (fread_time _ E d t _ rest (write_secs_nanos E t B)). cbn [t_read kotlin].
  destruct (small_secs t N) as [-> ->]. unfold kt_t_read. cbn [Z.leb Z.compare].
  replace (0 * 1000000000 + - t) with (- t) by lia.
  unfold i32_max, kt_time_min, kt_time_max. destruct (Z.ltb_spec 2147483647 (- t)); [lia|].
  destruct (Z.leb_spec (-31557014167219200 * 1000000000) (- t)); [|lia].
  destruct (Z.leb_spec (- t) (31556889864403199 * 1000000000 + 999999999)); [reflexivity|lia].
Qed.

Lemma kt_range x : kt_time_min <= x <= kt_time_max -> Z.abs x / 1000000000 <= i64_max.
Proof.
  unfold kt_time_min, kt_time_max, i64_max. intros B. apply Z.div_le_upper_bound; lia.
Qed.

Theorem kt_instant_to_rust E d x : kt_time_min <= x <= kt_time_max -> ~ (-1000000000 < x < 0) ->
  exists bs, fwrite kotlin E (S d) TTimestamp (FTime x) = Ok bs /\
             rust_reads E TTimestamp bs (VTime x).
Proof.
  intros B N. cbn [fwrite t_write kotlin]. rewrite kt_t_write_parts. cbn [bind].
  eexists. split; [reflexivity|]. apply rust_time; [exact (kt_range x B)|exact N|reflexivity].
Qed.

Theorem kt_instant_to_rust_lost E d x : -1000000000 < x < 0 ->
  exists bs, fwrite kotlin E (S d) TTimestamp (FTime x) = Ok bs /\
             rust_reads E TTimestamp bs (VTime (- x)).
Proof.
  intros N. cbn [fwrite t_write kotlin]. rewrite kt_t_write_parts. cbn [bind].
  eexists. split; [reflexivity|]. apply rust_time_lost; [exact N|reflexivity].
Qed.

Theorem kt_duration_from_rust E t d rest bs : 0 <= t / 1000000000 < modulus 8 ->
  write E TDuration (VDur t) = Ok bs ->
  fread kotlin E (S d) TDuration (bs ++ rest) =
  if t / 1000000000 <=? i64_max then Ok (FDur t, rest) else Err.
Proof.
  intros B W. rewrite (fread_dur _ E d t bs rest B W). cbn [d_read kotlin]. unfold kt_d_read, i32_max.
  pose proof (Z.mod_pos_bound t 1000000000 ltac:(lia)).
  pose proof (Z.div_mod t 1000000000 ltac:(lia)).
  rewrite (Z.div_small (t mod 1000000000)) by lia. rewrite Z.add_0_r.
  destruct (Z.ltb_spec i64_max (t / 1000000000)), (Z.leb_spec (t / 1000000000) i64_max); try lia; [reflexivity|].
  destruct (Z.ltb_spec 2147483647 (t mod 1000000000)); [lia|]. cbn [bind].
  replace (t / 1000000000 * 1000000000 + t mod 1000000000) with t by lia. reflexivity.
Qed.

Theorem kt_duration_to_rust E d x : 0 <= x -> x / 1000000000 <= i64_max ->
  exists bs, fwrite kotlin E (S d) TDuration (FDur x) = Ok bs /\
             rust_reads E TDuration bs (VDur x).
Proof.
  intros P B. assert (0 <= x / 1000000000) by (apply Z.div_pos; lia).
  cbn [fwrite d_write kotlin]. unfold kt_d_write.
  destruct (Z.ltb_spec (x / 1000000000) 0); [lia|]. cbn [bind].
  eexists. split; [reflexivity|]. apply rust_dur. rewrite modulus_8. unfold i64_max in B. lia.
Qed.

Theorem kt_duration_negative E d x : x < 0 -> fwrite kotlin E (S d) TDuration (FDur x) = Err.
Proof.
  intros N. cbn [fwrite d_write kotlin]. unfold kt_d_write.
  assert (x / 1000000000 < 0) by (apply Z.div_lt_upper_bound; lia).
  destruct (Z.ltb_spec (x / 1000000000) 0); [reflexivity|lia].
Qed.

(** ** Ruby *)

Theorem rb_instant_from_rust E t d rest bs : ~ (-1000000000 < t < 0) ->
  write E TTimestamp (VTime t) = Ok bs ->
  fread ruby E (S d) TTimestamp (bs ++ rest) = Ok (FTime t, rest).
Proof.
  intros N W. rewrite (fread_time _ E d t bs rest W). cbn [t_read ruby].
  rewrite rb_t_read_ok by exact N. reflexivity.
Qed.

Theorem rb_instant_lost E t d rest : -1000000000 < t < 0 ->
  exists bs, write E TTimestamp (VTime t) = Ok bs /\
  fread ruby E (S d) TTimestamp (bs ++ rest) = Ok (FTime (- t), rest).
Proof.
  intros N. assert (B : Z.abs t / 1000000000 <= i64_max) by (rewrite Z.div_small by lia; vm_compute; congruence).
  exists (enc 8 (t_secs t) ++ enc 4 (t_nanos t)).
  split; [exact (write_secs_nanos E t B)|].
  rewrite (fread_time _ E d t _ rest (write_secs_nanos E t B)). cbn [t_read ruby].
  destruct (small_secs t N) as [-> ->]. unfold rb_t_read. cbn [Z.ltb Z.compare andb bind].
  replace (0 * 1000000000 + - t) with (- t) by lia. reflexivity.
Qed.

Theorem rb_instant_to_rust E d x : Z.abs x / 1000000000 <= i64_max -> ~ (-1000000000 < x < 0) ->
  exists bs, fwrite ruby E (S d) TTimestamp (FTime x) = Ok bs /\
             rust_reads E TTimestamp bs (VTime x).
Proof.
  intros B N. cbn [fwrite t_write ruby]. rewrite rb_t_write_parts. cbn [bind].
  eexists. split; [reflexivity|]. apply rust_time; [exact B|exact N|reflexivity].
Qed.

Theorem rb_instant_to_rust_lost E d x : -1000000000 < x < 0 ->
  exists bs, fwrite ruby E (S d) TTimestamp (FTime x) = Ok bs /\
             rust_reads E TTimestamp bs (VTime (- x)).
Proof.
  intros N. cbn [fwrite t_write ruby]. rewrite rb_t_write_parts. cbn [bind].
  eexists. split; [reflexivity|]. apply rust_time_lost; [exact N|reflexivity].
Qed.

Theorem rb_duration_from_rust E t d rest bs : 0 <= t / 1000000000 <= i64_max ->
  write E TDuration (VDur t) = Ok bs ->
  fread ruby E (S d) TDuration (bs ++ rest) = Ok (FDur t, rest).
Proof.
  intros B W. rewrite (fread_dur _ E d t bs rest); [|unfold i64_max in B; rewrite modulus_8; lia|exact W].
  cbn [d_read ruby]. unfold rb_d_read.
  pose proof (Z.div_mod t 1000000000 ltac:(lia)).
  destruct (Z.ltb_spec i64_max (t / 1000000000)); [lia|]. cbn [bind].
  replace (t / 1000000000 * 1000000000 + t mod 1000000000) with t by lia. reflexivity.
Qed.

Theorem rb_duration_wraps E t d rest : i64_max < t / 1000000000 < modulus 8 ->
  exists bs, write E TDuration (VDur t) = Ok bs /\
  fread ruby E (S d) TDuration (bs ++ rest) = Ok (FDur (t - modulus 8 * 1000000000), rest).
Proof.
  intros B. eexists. split; [reflexivity|].
  rewrite (fread_dur _ E d t _ rest); [|unfold i64_max in B; lia|reflexivity].
  cbn [d_read ruby]. unfold rb_d_read.
  pose proof (Z.div_mod t 1000000000 ltac:(lia)).
  destruct (Z.ltb_spec i64_max (t / 1000000000)); [|lia]. cbn [bind]. do 3 f_equal.
  rewrite Z.mul_sub_distr_r. lia.
Qed.

Theorem rb_duration_to_rust E d x : 0 <= x -> x / 1000000000 < modulus 8 ->
  exists bs, fwrite ruby E (S d) TDuration (FDur x) = Ok bs /\
             rust_reads E TDuration bs (VDur x).
Proof.
  intros P B. assert (0 <= x / 1000000000) by (apply Z.div_pos; lia).
  cbn [fwrite d_write ruby]. unfold rb_d_write.
  destruct (Z.ltb_spec (x / 1000000000) 0); [lia|]. cbn [bind].
  eexists. split; [reflexivity|]. now apply rust_dur.
Qed.

Theorem rb_duration_negative E d x : x < 0 -> fwrite ruby E (S d) TDuration (FDur x) = Err.
Proof.
  intros N. cbn [fwrite d_write ruby]. unfold rb_d_write.
  assert (x / 1000000000 < 0) by (apply Z.div_lt_upper_bound; lia).
  destruct (Z.ltb_spec (x / 1000000000) 0); [reflexivity|lia].
Qed.

(** * Kotlin's buffers *)

Theorem klower_bounded E d t f cap bs : klower E d t f = Ok (cap, bs) -> Z.of_nat (length bs) <= cap.
Proof.
  unfold klower. intros H. apply bind_ok in H as (n & Hn & H). apply bind_ok in H as (b & Hb & H).
  destruct (Z.leb_spec (Z.of_nat (length b)) (n mod modulus 8)); [|discriminate].
  assert (n mod modulus 8 = cap /\ b = bs) as [<- <-] by (split; congruence). assumption.
Qed.

Theorem klower_ok E d t f bs n : fwrite kotlin E d t f = Ok bs -> kalloc E d t f = Ok n ->
  0 <= n < modulus 8 -> klower E d t f = Ok (n, bs).
Proof.
  intros W K B. destruct (kalloc_enough E d t f bs W) as (m & K' & L).
  assert (m = n) as -> by congruence. unfold klower. rewrite K. cbn [bind].
  rewrite Z.mod_small by exact B. rewrite W. cbn [bind].
  destruct (Z.leb_spec (Z.of_nat (length bs)) n); [reflexivity|lia].
Qed.
