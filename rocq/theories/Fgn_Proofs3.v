(** The leaves of the three languages satisfy the laws of Fgn_Proofs. *)
From Verif Require Import Base Utf8 Utf8_Proofs Wire_Model Wire_Spec Wire_Proofs
  Fgn_Model Fgn_Spec Fgn_Proofs Fgn_Proofs2.
Local Open Scope Z_scope.

(** * Strings *)

Lemma hi_surr_true u : hi_surr u = true -> (0xD800 <= u < 0xDC00)%N.
Proof. unfold hi_surr. intros H. apply andb_true_iff in H as [A B]. apply N.leb_le in A. apply N.ltb_lt in B. lia. Qed.
Lemma lo_surr_true u : lo_surr u = true -> (0xDC00 <= u < 0xE000)%N.
Proof. unfold lo_surr. intros H. apply andb_true_iff in H as [A B]. apply N.leb_le in A. apply N.ltb_lt in B. lia. Qed.
Lemma hi_surr_is u : (0xD800 <= u < 0xDC00)%N -> hi_surr u = true.
Proof. intros [A B]. unfold hi_surr. apply andb_true_iff. split; [now apply N.leb_le|now apply N.ltb_lt]. Qed.
Lemma lo_surr_is u : (0xDC00 <= u < 0xE000)%N -> lo_surr u = true.
Proof. intros [A B]. unfold lo_surr. apply andb_true_iff. split; [now apply N.leb_le|now apply N.ltb_lt]. Qed.
Lemma surr_not u : ~ (0xD800 <= u < 0xE000)%N -> hi_surr u = false /\ lo_surr u = false.
Proof.
  intros H. split; [destruct (hi_surr u) eqn:X; [apply hi_surr_true in X; lia|reflexivity]|
    destruct (lo_surr u) eqn:X; [apply lo_surr_true in X; lia|reflexivity]].
Qed.
Lemma surr_false u : hi_surr u = false -> lo_surr u = false -> ~ (0xD800 <= u < 0xE000)%N.
Proof.
  intros H L [A B]. destruct (N.ltb_spec u 0xDC00).
  - rewrite hi_surr_is in H; [discriminate|lia].
  - rewrite lo_surr_is in L; [discriminate|lia].
Qed.

Lemma scalarb_spec c : scalarb c = true <-> scalar c.
Proof. unfold scalarb, scalar. lia. Qed.

Lemma cp_write_ok cs s : cp_write cs = Ok s -> utf8_valid s = true /\ str_cps s cs.
Proof.
  unfold cp_write. destruct (forallb scalarb cs) eqn:F; intros [= <-].
  assert (Forall scalar cs).
  { apply Forall_forall. rewrite forallb_forall in F. intros c I. apply scalarb_spec; auto. }
  split; [now apply utf8_enc_valid|split; auto].
Qed.

Lemma cp_write_cps s cs : str_cps s cs -> cp_write cs = Ok s.
Proof.
  intros [F ->]. unfold cp_write. replace (forallb scalarb cs) with true; [reflexivity|].
  symmetry. apply forallb_forall. rewrite Forall_forall in F. intros c I. apply scalarb_spec; auto.
Qed.

Lemma cp_read_cps s cs : str_cps s cs -> cp_read s = Ok cs.
Proof. intros [F ->]. unfold cp_read. now rewrite utf8_dec_enc. Qed.

Lemma str_cps_inj s cs cs' : str_cps s cs -> str_cps s cs' -> cs = cs'.
Proof.
  intros H H'. apply cp_read_cps in H, H'. congruence.
Qed.

Lemma utf16_dec_enc cs : Forall scalar cs -> utf16_dec (utf16_enc cs) = Some cs.
Proof.
  induction 1 as [|c cs H _ IH]; [reflexivity|].
  change (utf16_enc (c :: cs)) with (utf16_enc1 c ++ utf16_enc cs).
  unfold utf16_enc1, scalar in *. destruct (N.ltb_spec c 0x10000) as [L|L]; cbn [app utf16_dec].
  - destruct (surr_not c) as [-> ->]; [lia|].
    destruct (N.ltb_spec c 0x10000); [now rewrite IH|lia].
  - pose proof (N.div_mod (c - 0x10000) 0x400 ltac:(lia)) as DM.
    pose proof (N.mod_lt (c - 0x10000) 0x400 ltac:(lia)) as ML.
    set (a := ((c - 0x10000) / 0x400)%N) in *. set (b := ((c - 0x10000) mod 0x400)%N) in *.
    clearbody a b. assert (C : (c = 0x10000 + 0x400 * a + b)%N) by lia. clear DM.
    rewrite hi_surr_is by lia. rewrite lo_surr_is by lia. rewrite IH. do 2 f_equal. lia.
Qed.

Lemma utf16_dec_sound k : forall us cs, (length us <= k)%nat -> utf16_dec us = Some cs ->
  Forall scalar cs /\ utf16_enc cs = us.
Proof.
  induction k as [|k IH]; intros [|u r] cs L H; cbn [length] in L; try lia; cbn [utf16_dec] in H.
  - injection H as <-. split; [constructor|reflexivity].
  - injection H as <-. split; [constructor|reflexivity].
  - destruct (hi_surr u) eqn:Hu; [destruct r as [|w r']; [discriminate|];
      destruct (lo_surr w) eqn:Hw; [|discriminate];
      destruct (utf16_dec r') as [cs'|] eqn:D; [|discriminate] |
      destruct (lo_surr u) eqn:Lu; [discriminate|];
      destruct (N.ltb_spec u 0x10000) as [B|B]; [|discriminate];
      destruct (utf16_dec r) as [cs'|] eqn:D; [|discriminate]].
    + cbn [length] in L. destruct (IH r' cs' ltac:(lia) D) as [F X].
      apply hi_surr_true in Hu. apply lo_surr_true in Hw.
      assert (exists a b, u = 0xD800 + a /\ w = 0xDC00 + b /\ a < 0x400 /\ b < 0x400)%N
        as (a & b & -> & -> & Ha & Hb) by (exists (u - 0xD800)%N, (w - 0xDC00)%N; lia).
      replace (0xD800 + a - 0xD800)%N with a in H by lia.
      replace (0xDC00 + b - 0xDC00)%N with b in H by lia.
      set (c := (0x10000 + a * 0x400 + b)%N) in *.
      assert (C : (0x10000 <= c < 0x110000)%N) by (unfold c; lia).
      injection H as <-.
      split; [constructor; [unfold scalar; lia|exact F]|].
      change (utf16_enc (c :: cs')) with (utf16_enc1 c ++ utf16_enc cs'). rewrite X.
      unfold utf16_enc1. destruct (N.ltb_spec c 0x10000); [lia|].
      replace (c - 0x10000)%N with (0x400 * a + b)%N by (unfold c; lia).
      rewrite <- (N.div_unique (0x400 * a + b) 0x400 a b) by (reflexivity || assumption).
      rewrite <- (N.mod_unique (0x400 * a + b) 0x400 a b) by (reflexivity || assumption).
      reflexivity.
    + injection H as <-. destruct (IH r cs' ltac:(lia) D) as [F X]. pose proof (surr_false u Hu Lu).
      split; [constructor; [unfold scalar; lia|exact F]|].
      change (utf16_enc (u :: cs')) with (utf16_enc1 u ++ utf16_enc cs'). rewrite X.
      unfold utf16_enc1. destruct (N.ltb_spec u 0x10000); [reflexivity|lia].
Qed.

Lemma kt_s_write_ok us s : kt_s_write us = Ok s -> utf8_valid s = true /\ str_utf16 s us.
Proof.
  unfold kt_s_write. destruct (utf16_dec us) as [cs|] eqn:D; intros [= <-].
  destruct (utf16_dec_sound (length us) us cs (le_n _) D) as [F X].
  split; [now apply utf8_enc_valid|]. exists cs. auto.
Qed.

Lemma kt_s_write_exact s us : str_utf16 s us -> kt_s_write us = Ok s.
Proof. intros (cs & F & -> & ->). unfold kt_s_write. now rewrite utf16_dec_enc. Qed.

Lemma kt_s_read_exact s us : str_utf16 s us -> kt_s_read s = Ok us.
Proof. intros (cs & F & -> & ->). unfold kt_s_read. now rewrite utf8_dec_enc. Qed.

Lemma str_utf16_inj s us us' : str_utf16 s us -> str_utf16 s us' -> us = us'.
Proof. intros H H'. apply kt_s_read_exact in H, H'. congruence. Qed.

Lemma utf8_enc1_le c : (length (utf8_enc1 c) <= 3 * length (utf16_enc1 c))%nat.
Proof.
  unfold utf8_enc1, utf16_enc1.
  destruct (N.ltb_spec c 0x80), (N.ltb_spec c 0x800), (N.ltb_spec c 0x10000); cbn [length]; lia.
Qed.

Lemma utf8_utf16_length cs : (length (utf8_enc cs) <= 3 * length (utf16_enc cs))%nat.
Proof.
  unfold utf8_enc, utf16_enc. induction cs as [|c cs IH]; cbn [flat_map length]; [lia|].
  rewrite !app_length. pose proof (utf8_enc1_le c). lia.
Qed.

(** * Lengths *)

Lemma py_l_write_put n hd : py_l_write n = Ok hd -> put_len n = Ok hd.
Proof. unfold py_l_write, put_len. destruct (Z.of_nat n <=? i32_max); congruence. Qed.

Lemma py_l_write_ok n : Z.of_nat n <= i32_max -> py_l_write n = Ok (enc 4 (Z.of_nat n)).
Proof. intros H. unfold py_l_write. destruct (Z.leb_spec (Z.of_nat n) i32_max); [reflexivity|lia]. Qed.

(** * Instants and durations *)

Lemma write_time_parts t : Z.abs t / 1000000000 <= i64_max ->
  - half 8 <= t / 1000000000 < half 8 /\ write_time t = Ok (enc 8 (t_secs t) ++ enc 4 (t_nanos t)).
Proof.
  intros H. split.
  - rewrite half_8. unfold i64_max in H.
    pose proof (Z.div_mod (Z.abs t) 1000000000 ltac:(lia)).
    pose proof (Z.mod_pos_bound (Z.abs t) 1000000000 ltac:(lia)).
    pose proof (Z.div_mod t 1000000000 ltac:(lia)).
    pose proof (Z.mod_pos_bound t 1000000000 ltac:(lia)). lia.
  - unfold write_time, nanos_per_sec. destruct (Z.leb_spec (Z.abs t / 1000000000) i64_max); [|lia].
    reflexivity.
Qed.

Lemma parts_abs t : exists q m, Z.abs t = q * 1000000000 + m /\ 0 <= q /\ 0 <= m < 1000000000 /\
  t_secs t = (if 0 <=? t then q else - q) /\ t_nanos t = m /\ Z.abs t / 1000000000 = q.
Proof.
  exists (Z.abs t / 1000000000), (Z.abs t mod 1000000000).
  pose proof (Z.div_mod (Z.abs t) 1000000000 ltac:(lia)).
  pose proof (Z.mod_pos_bound (Z.abs t) 1000000000 ltac:(lia)).
  assert (0 <= Z.abs t / 1000000000) by (apply Z.div_pos; lia).
  repeat split; try lia; try reflexivity. unfold t_secs. destruct (0 <=? t); lia.
Qed.

Lemma nearest_unique t x y : nearest_us t x -> nearest_us t y -> x = y.
Proof.
  unfold nearest_us. intros [H|[H [a Ha]]] [G|[G [b Hb]]]; lia.
Qed.

Lemma rhe_even n k : 0 < k -> 2 * Z.abs (rhe n k * k - n) = k -> Z.Even (rhe n k).
Proof.
  intros K. unfold rhe.
  pose proof (Z.div_mod n k ltac:(lia)). pose proof (Z.mod_pos_bound n k K).
  destruct (Z.ltb_spec (2 * (n mod k)) k); [nia|].
  destruct (Z.ltb_spec k (2 * (n mod k))); [nia|].
  destruct (Z.even (n / k)) eqn:E; intros _.
  - now apply Z.even_spec.
  - apply Z.even_spec. rewrite Z.add_1_r, Z.even_succ, <- Z.negb_even, E. reflexivity.
Qed.

Lemma nearest_parts q m : nearest_us (q * 1000000000 + m) (q * 1000000 + rhe m 1000).
Proof.
  unfold nearest_us. pose proof (rhe_half m 1000 ltac:(lia)) as H.
  pose proof (rhe_even m 1000 ltac:(lia)) as Ev.
  replace (q * 1000000000 + m - 1000 * (q * 1000000 + rhe m 1000)) with (- (rhe m 1000 * 1000 - m)) by lia.
  rewrite Z.abs_opp.
  destruct (Z.eq_dec (2 * Z.abs (rhe m 1000 * 1000 - m)) 1000) as [X|X]; [right|left; lia].
  split; [exact X|]. destruct (Ev X) as [a Ha]. exists (q * 500000 + a). lia.
Qed.

Lemma nearest_neg t x : nearest_us t x -> nearest_us (- t) (- x).
Proof.
  unfold nearest_us. replace (- t - 1000 * - x) with (- (t - 1000 * x)) by lia. rewrite Z.abs_opp.
  intros [H|[H [a Ha]]]; [left; exact H|right]. split; [exact H|]. exists (- a). lia.
Qed.

Lemma py_t_read_ok t x : ~ (-1000000000 < t < 0) ->
  nearest_us t x /\ py_time_min <= x <= py_time_max -> py_t_read (t_secs t) (t_nanos t) = Ok x.
Proof.
  intros N [Hx B]. destruct (parts_abs t) as (q & m & A & Q & M & S1 & S2 & _).
  unfold py_t_read. rewrite S1, S2.
  assert (X : (if 0 <=? (if 0 <=? t then q else - q)
               then Z.abs (if 0 <=? t then q else - q) * 1000000 + rhe m 1000
               else - (Z.abs (if 0 <=? t then q else - q) * 1000000 + rhe m 1000)) = x).
  { apply (nearest_unique t); [|exact Hx]. pose proof (nearest_parts q m) as P.
    destruct (Z.leb_spec 0 t).
    - destruct (Z.leb_spec 0 q); [|lia]. rewrite (Z.abs_eq q) by lia.
      replace t with (q * 1000000000 + m) by lia. exact P.
    - destruct (Z.leb_spec 0 (- q)); [lia|]. rewrite Z.abs_opp, (Z.abs_eq q) by lia.
      replace t with (- (q * 1000000000 + m)) by lia. apply nearest_neg, P. }
  rewrite X. replace ((py_time_min <=? x) && (x <=? py_time_max)) with true by lia. reflexivity.
Qed.

Lemma py_d_read_ok t x : 0 <= t / 1000000000 ->
  nearest_us t x /\ x <= py_delta_max -> py_d_read (t / 1000000000) (t mod 1000000000) = Ok x.
Proof.
  intros N [Hx B]. unfold py_d_read.
  assert (X : t / 1000000000 * 1000000 + rhe (t mod 1000000000) 1000 = x).
  { apply (nearest_unique t); [|exact Hx].
    pose proof (nearest_parts (t / 1000000000) (t mod 1000000000)) as P.
    replace (t / 1000000000 * 1000000000 + t mod 1000000000) with t in P; [exact P|].
    pose proof (Z.div_mod t 1000000000 ltac:(lia)). lia. }
  rewrite X. destruct (Z.leb_spec x py_delta_max); [reflexivity|lia].
Qed.

Lemma py_t_write_parts x : py_t_write x = Ok (t_secs (1000 * x), t_nanos (1000 * x)).
Proof.
  unfold py_t_write, t_secs, t_nanos. rewrite Z.abs_mul. change (Z.abs 1000) with 1000.
  change 1000000000 with (1000 * 1000000). rewrite Z.div_mul_cancel_l, Z.mul_mod_distr_l by lia.
  destruct (Z.leb_spec 0 x), (Z.leb_spec 0 (1000 * x)); try lia; do 2 f_equal; lia.
Qed.

Lemma us_div x : (1000 * x) / 1000000000 = x / 1000000.
Proof. change 1000000000 with (1000 * 1000000). now rewrite Z.div_mul_cancel_l by lia. Qed.
Lemma us_mod x : (1000 * x) mod 1000000000 = 1000 * (x mod 1000000).
Proof. change 1000000000 with (1000 * 1000000). now rewrite Z.mul_mod_distr_l by lia. Qed.

Lemma kt_t_read_ok t : ~ (-1000000000 < t < 0) -> kt_time_min <= t <= kt_time_max ->
  kt_t_read (t_secs t) (t_nanos t) = Ok t.
Proof.
  intros N B. destruct (parts_abs t) as (q & m & A & Q & M & S1 & S2 & _).
  unfold kt_t_read, i32_max. rewrite S1, S2. destruct (Z.ltb_spec 2147483647 m); [lia|].
  assert (X : (if 0 <=? (if 0 <=? t then q else - q)
               then (if 0 <=? t then q else - q) * 1000000000 + m
               else - (- (if 0 <=? t then q else - q) * 1000000000 + m)) = t).
  { destruct (Z.leb_spec 0 t); [destruct (Z.leb_spec 0 q)|destruct (Z.leb_spec 0 (- q))]; lia. }
  rewrite X. replace ((kt_time_min <=? t) && (t <=? kt_time_max)) with true by lia. reflexivity.
Qed.

Lemma kt_t_write_parts t : kt_t_write t = Ok (t_secs t, t_nanos t).
Proof.
  unfold kt_t_write, t_secs, t_nanos.
  pose proof (Z.div_mod t 1000000000 ltac:(lia)).
  pose proof (Z.mod_pos_bound t 1000000000 ltac:(lia)).
  destruct (Z.ltb_spec (t / 1000000000) 0), (Z.leb_spec 0 t); try lia; reflexivity.
Qed.

Lemma rb_t_read_ok t : ~ (-1000000000 < t < 0) -> rb_t_read (t_secs t) (t_nanos t) = Ok t.
Proof.
  intros N. destruct (parts_abs t) as (q & m & A & Q & M & S1 & S2 & _).
  unfold rb_t_read. rewrite S1, S2.
  destruct (Z.leb_spec 0 t).
  - destruct (Z.ltb_spec q 0); [lia|]. cbn [andb]. f_equal. lia.
  - destruct (Z.ltb_spec (- q) 0); [|lia]. cbn [andb].
    destruct (Z.eqb_spec m 0); cbn [negb]; f_equal; lia.
Qed.

Lemma rb_t_write_parts t : rb_t_write t = Ok (t_secs t, t_nanos t).
Proof.
  destruct (parts_abs t) as (q & m & A & Q & M & S1 & S2 & _). unfold rb_t_write. rewrite S1, S2.
  pose proof (Z.div_mod t 1000000000 ltac:(lia)).
  pose proof (Z.mod_pos_bound t 1000000000 ltac:(lia)).
  destruct (Z.leb_spec 0 t).
  - destruct (Z.ltb_spec (t / 1000000000) 0); [lia|]. cbn [andb]. do 2 f_equal; lia.
  - destruct (Z.ltb_spec (t / 1000000000) 0); [|lia]. cbn [andb].
    destruct (Z.eqb_spec (t mod 1000000000) 0); cbn [negb]; do 2 f_equal; lia.
Qed.

Lemma py_fhash E h c f : py_key E h f -> fhash (python E h c) f = true.
Proof.
  destruct f; cbn [py_key fhash]; try tauto; try reflexivity; cbn [class_hash python];
    unfold py_class_hash; destruct (defs E n) as [[ts|ne variants|k r| |b]|]; try reflexivity;
    try (intros ->; reflexivity); intros [H| ->]; try apply orb_true_r;
    apply orb_true_iff; left; apply forallb_forall; rewrite Forall_forall in H; intros x I;
    now rewrite (H x I).
Qed.

(** * Python *)

Lemma mod84 (d : bool) z : 0 <= z < modulus (if d then 8 else 4)%nat -> d = false -> is_f32 z.
Proof. intros H ->. rewrite modulus_4 in H. unfold is_f32. rewrite e32. exact H. Qed.

Theorem py_reads E h c v t f bs rest d :
  same (py_to E h) E t v f -> has_type E t v -> no_lost_instant v ->
  write E t v = Ok bs -> (vdepth v <= d)%nat ->
  fread (python E h c) E d t (bs ++ rest) = Ok (f, rest).
Proof.
  apply fread_write; cbn [c_int c_float c_str c_time c_dur c_obj c_key u8_signed f_read f_write bool_of opt_of s_read s_write t_read t_write d_read d_write l_write null_ok python py_from py_to py_exact kotlin kt_from kt_to ruby rb_from rb_to rb_exact py_leaf kt_leaf rb_leaf].
  - discriminate.
  - intros d0 z g B C. destruct d0; [exact C|]. apply number_of_widen; [|exact C]. now apply (mod84 false).
  - split; reflexivity.
  - split; reflexivity.
  - apply cp_read_cps.
  - intros t0 x N _ H. now apply py_t_read_ok.
  - intros t0 x [N _] H. now apply py_d_read_ok.
  - intros h0 H X. congruence.
  - intros g. apply py_fhash.
Qed.

Definition py_pred (c : bool) (f : fval) : Prop :=
  py_leaf f /\ (c = false -> match f with FDur x => 0 <= x | _ => True end).

Theorem py_writes E h c d t f bs :
  fwrite (python E h c) E d t f = Ok bs -> fwf (py_pred c) f -> no_f32_keys E t ->
  exists v, understood py_from E d t f bs v.
Proof.
  intros H W K.
  refine (fwrite_understood (python E h c) py_from E (py_pred c) _ _ _ _ _ _ _ _ _ _ _ _ d t f bs H W _);
    [exact (fun _ _ _ => I)| | | | | |exact (fun _ => I)|exact (fun _ => I)| | | | |now right];
    unfold py_pred; cbn [c_int c_float c_str c_time c_dur c_obj c_key u8_signed f_read f_write bool_of opt_of s_read s_write t_read t_write d_read d_write l_write null_ok python py_from py_to py_exact kotlin kt_from kt_to ruby rb_from rb_to rb_exact py_leaf kt_leaf rb_leaf].
  - intros d0 g z [B _] X. destruct d0.
    + injection X as <-. split; [|reflexivity]. rewrite modulus_8. unfold is_f64 in B. rewrite e64 in B. exact B.
    + destruct (narrow g) as [b|] eqn:Nw; [|discriminate]. injection X as <-.
      pose proof (narrow_some g b B Nw) as Rd. split; [|exact Rd]. rewrite modulus_4.
      destruct Rd as [F _]. unfold is_f32 in F. rewrite e32 in F. exact F.
  - apply cp_write_ok.
  - intros g n hd _ _. apply py_l_write_put.
  - intros x s n [B _] X. exists (1000 * x). split; [reflexivity|].
    rewrite py_t_write_parts in X.
    assert (s = t_secs (1000 * x)) as -> by congruence.
    assert (n = t_nanos (1000 * x)) as -> by congruence. apply write_time_parts.
    rewrite Z.abs_mul. change (Z.abs 1000) with 1000. rewrite us_div.
    unfold py_time_min, py_time_max, i64_max in *.
    pose proof (Z.div_mod (Z.abs x) 1000000 ltac:(lia)).
    pose proof (Z.mod_pos_bound (Z.abs x) 1000000 ltac:(lia)). lia.
  - intros x s n [[B1 B2] Nn] X. exists (1000 * x). split; [reflexivity|].
    unfold py_d_write in X. rewrite us_div, modulus_8.
    unfold write_dur, nanos_per_sec. rewrite us_div, us_mod.
    pose proof (Z.div_mod x 1000000 ltac:(lia)).
    pose proof (Z.mod_pos_bound x 1000000 ltac:(lia)).
    unfold py_delta_max in *.
    assert (G : 0 <= x / 1000000 /\ s = x / 1000000 /\ n = x mod 1000000 * 1000).
    { destruct c; cbn [andb] in X.
      - destruct (Z.ltb_spec (x / 1000000) 0); [discriminate|]. injection X as <- <-. auto.
      - injection X as <- <-. specialize (Nn eq_refl). split; [lia|auto]. }
    destruct G as (G & -> & ->). split; [lia|]. rewrite (Z.mul_comm 1000). reflexivity.
  - apply str_cps_inj.
  - intros. lia.
  - intros. lia.
  - intros z g g' -> ->. reflexivity.
Qed.

Theorem py_writes_exact E h c v t f bs d :
  same py_exact E t v f -> has_type E t v -> no_flat v ->
  write E t v = Ok bs -> (vdepth v <= d)%nat -> fwrite (python E h c) E d t f = Ok bs.
Proof.
  apply fwrite_exact; cbn [c_int c_float c_str c_time c_dur c_obj c_key u8_signed f_read f_write bool_of opt_of s_read s_write t_read t_write d_read d_write l_write null_ok python py_from py_to py_exact kotlin kt_from kt_to ruby rb_from rb_to rb_exact py_leaf kt_leaf rb_leaf].
  - intros d0 z g B C. destruct d0; [now subst|]. rewrite (narrow_number z g); [reflexivity| |exact C].
    now apply (mod84 false).
  - apply cp_write_cps.
  - apply py_l_write_ok.
  - intros t0 x ->. apply py_t_write_parts.
  - intros t0 x B ->. rewrite us_div, us_mod in *. unfold py_d_write.
    destruct (Z.ltb_spec (x / 1000000) 0); [lia|]. rewrite andb_false_r. do 2 f_equal. lia.
Qed.

(** * Kotlin *)

Theorem kt_reads E v t f bs rest d :
  same kt_to E t v f -> has_type E t v -> no_lost_instant v ->
  write E t v = Ok bs -> (vdepth v <= d)%nat ->
  fread kotlin E d t (bs ++ rest) = Ok (f, rest).
Proof.
  apply fread_write; cbn [c_int c_float c_str c_time c_dur c_obj c_key u8_signed f_read f_write bool_of opt_of s_read s_write t_read t_write d_read d_write l_write null_ok python py_from py_to py_exact kotlin kt_from kt_to ruby rb_from rb_to rb_exact py_leaf kt_leaf rb_leaf].
  - discriminate.
  - intros d0 z g _ ->. reflexivity.
  - split; reflexivity.
  - split; reflexivity.
  - apply kt_s_read_exact.
  - intros t0 x N _ [-> H]. now apply kt_t_read_ok.
  - intros t0 x N [-> H]. unfold kt_d_read, i32_max.
    pose proof (Z.div_mod x 1000000000 ltac:(lia)).
    pose proof (Z.mod_pos_bound x 1000000000 ltac:(lia)).
    destruct (Z.ltb_spec i64_max (x / 1000000000)); [lia|].
    destruct (Z.ltb_spec 2147483647 (x mod 1000000000)); [lia|].
    rewrite (Z.div_small (x mod 1000000000)) by lia.
    destruct (Z.leb_spec (x / 1000000000 + 0) i64_max); [|lia]. f_equal. lia.
  - reflexivity.
  - intros g _. destruct g; reflexivity.
Qed.

Theorem kt_writes E d t f bs :
  fwrite kotlin E d t f = Ok bs -> fwf kt_leaf f -> exists v, understood kt_from E d t f bs v.
Proof.
  intros H W.
  refine (fwrite_understood kotlin kt_from E kt_leaf _ _ _ _ _ _ _ _ _ _ _ _ d t f bs H W _);
    [exact (fun _ _ _ => I)| | | | | |exact (fun _ => I)|exact (fun _ => I)| | | | |]; cbn [c_int c_float c_str c_time c_dur c_obj c_key u8_signed f_read f_write bool_of opt_of s_read s_write t_read t_write d_read d_write l_write null_ok python py_from py_to py_exact kotlin kt_from kt_to ruby rb_from rb_to rb_exact py_leaf kt_leaf rb_leaf].
  - intros d0 g z _ X.
    destruct ((0 <=? g) && (g <? modulus (if d0 then 8 else 4)%nat)) eqn:B; [|discriminate].
    injection X as <-. apply andb_true_iff in B as [B1 B2]. split; [|reflexivity].
    apply Z.leb_le in B1. apply Z.ltb_lt in B2. split; assumption.
  - apply kt_s_write_ok.
  - intros g n hd _ _. apply py_l_write_put.
  - intros x s n B X. exists x. split; [reflexivity|].
    rewrite kt_t_write_parts in X. injection X as <- <-. apply write_time_parts.
    unfold kt_time_min, kt_time_max, i64_max in *.
    pose proof (Z.div_mod (Z.abs x) 1000000000 ltac:(lia)).
    pose proof (Z.mod_pos_bound (Z.abs x) 1000000000 ltac:(lia)). lia.
  - intros x s n B X. exists x. split; [reflexivity|]. unfold kt_d_write in X.
    destruct (Z.ltb_spec (x / 1000000000) 0); [discriminate|]. injection X as <- <-.
    unfold i64_max in B. rewrite modulus_8. split; [lia|reflexivity].
  - apply str_utf16_inj.
  - intros. congruence.
  - intros. congruence.
  - intros. congruence.
  - left. intros z g g' X Y. cbn in X, Y. congruence.
Qed.

Theorem kt_writes_exact E v t f bs d :
  same kt_from E t v f -> has_type E t v -> no_flat v ->
  write E t v = Ok bs -> (vdepth v <= d)%nat -> fwrite kotlin E d t f = Ok bs.
Proof.
  apply fwrite_exact; cbn [c_int c_float c_str c_time c_dur c_obj c_key u8_signed f_read f_write bool_of opt_of s_read s_write t_read t_write d_read d_write l_write null_ok python py_from py_to py_exact kotlin kt_from kt_to ruby rb_from rb_to rb_exact py_leaf kt_leaf rb_leaf].
  - intros d0 z g B ->.
    replace ((0 <=? g) && (g <? modulus (if d0 then 8 else 4)%nat)) with true; [reflexivity|].
    symmetry. apply andb_true_iff. split; [apply Z.leb_le|apply Z.ltb_lt]; apply B.
  - apply kt_s_write_exact.
  - apply py_l_write_ok.
  - intros t0 x ->. apply kt_t_write_parts.
  - intros t0 x B ->. unfold kt_d_write. destruct (Z.ltb_spec (x / 1000000000) 0); [lia|reflexivity].
Qed.

(** * Ruby *)

Theorem rb_reads E v t f bs rest d :
  same rb_to E t v f -> has_type E t v -> no_lost_instant v ->
  write E t v = Ok bs -> (vdepth v <= d)%nat ->
  fread ruby E d t (bs ++ rest) = Ok (f, rest).
Proof.
  apply fread_write; cbn [c_int c_float c_str c_time c_dur c_obj c_key u8_signed f_read f_write bool_of opt_of s_read s_write t_read t_write d_read d_write l_write null_ok python py_from py_to py_exact kotlin kt_from kt_to ruby rb_from rb_to rb_exact py_leaf kt_leaf rb_leaf].
  - intros z H _. apply H; reflexivity.
  - intros d0 z g B C. destruct d0; [exact C|]. apply number_of_widen; [|exact C]. now apply (mod84 false).
  - split; reflexivity.
  - split; reflexivity.
  - apply cp_read_cps.
  - intros t0 x N _ ->. now apply rb_t_read_ok.
  - intros t0 x N [-> H]. unfold rb_d_read.
    destruct (Z.ltb_spec i64_max (x / 1000000000)); [lia|].
    pose proof (Z.div_mod x 1000000000 ltac:(lia)). f_equal. lia.
  - reflexivity.
  - intros g _. destruct g; reflexivity.
Qed.

Theorem rb_writes E d t f bs :
  fwrite ruby E d t f = Ok bs -> fwf rb_leaf f -> no_f32_keys E t ->
  exists v, understood rb_from E d t f bs v.
Proof.
  intros H W K.
  refine (fwrite_understood ruby rb_from E rb_leaf _ _ _ _ _ _ _ _ _ _ _ _ d t f bs H W _);
    [exact (fun _ _ _ => I)| | | | | |exact (fun _ => I)|exact (fun _ => I)| | | | |now right]; cbn [c_int c_float c_str c_time c_dur c_obj c_key u8_signed f_read f_write bool_of opt_of s_read s_write t_read t_write d_read d_write l_write null_ok python py_from py_to py_exact kotlin kt_from kt_to ruby rb_from rb_to rb_exact py_leaf kt_leaf rb_leaf].
  - intros d0 g z B X. injection X as <-. destruct d0.
    + split; [|reflexivity]. rewrite modulus_8. unfold is_f64 in B. rewrite e64 in B. exact B.
    + assert (Rd : rounding_of match narrow g with Some b => b | None => g / p63 * p31 + 255 * p23 end g).
      { destruct (narrow g) as [b|] eqn:Nw; [now apply narrow_some|now apply overflow_inf]. }
      split; [|exact Rd]. rewrite modulus_4.
      destruct Rd as [F _]. unfold is_f32 in F. rewrite e32 in F. exact F.
  - apply cp_write_ok.
  - intros g n hd B X Y. unfold rb_l_write in Y. injection Y as <-. unfold put_len.
    assert (Z.of_nat n <= i32_max).
    { destruct g; cbn [fsize rb_leaf] in *; try discriminate; try (injection X as <-; exact B).
      cbn [s_write ruby] in X. unfold cp_write in X. destruct (forallb scalarb cs); [|discriminate].
      injection X as <-. exact B. }
    destruct (Z.leb_spec (Z.of_nat n) i32_max); [reflexivity|lia].
  - intros x s n B X. exists x. split; [reflexivity|].
    rewrite rb_t_write_parts in X. injection X as <- <-. now apply write_time_parts.
  - intros x s n B X. exists x. split; [reflexivity|]. unfold rb_d_write in X.
    destruct (Z.ltb_spec (x / 1000000000) 0); [discriminate|]. injection X as <- <-.
    unfold u64_max in B. rewrite modulus_8. split; [lia|reflexivity].
  - apply str_cps_inj.
  - intros. congruence.
  - intros. congruence.
  - intros. congruence.
Qed.

Theorem rb_writes_exact E v t f bs d :
  same rb_exact E t v f -> has_type E t v -> no_flat v ->
  write E t v = Ok bs -> (vdepth v <= d)%nat -> fwrite ruby E d t f = Ok bs.
Proof.
  apply fwrite_exact; cbn [c_int c_float c_str c_time c_dur c_obj c_key u8_signed f_read f_write bool_of opt_of s_read s_write t_read t_write d_read d_write l_write null_ok python py_from py_to py_exact kotlin kt_from kt_to ruby rb_from rb_to rb_exact py_leaf kt_leaf rb_leaf].
  - intros d0 z g B C. destruct d0; [now subst|]. rewrite (narrow_number z g); [reflexivity| |exact C].
    now apply (mod84 false).
  - apply cp_write_cps.
  - reflexivity.
  - intros t0 x ->. apply rb_t_write_parts.
  - intros t0 x B ->. unfold rb_d_write. destruct (Z.ltb_spec (x / 1000000000) 0); [lia|reflexivity].
Qed.

(** * Kotlin sizes *)

Lemma sumZ_cat {A} (w : A -> res bytes) (z : A -> res Z) l :
  Forall (fun a => forall b, w a = Ok b -> exists n, z a = Ok n /\ Z.of_nat (length b) <= n) l ->
  forall b, cat_res (map w l) = Ok b -> exists n, sumZ (map z l) = Ok n /\ Z.of_nat (length b) <= n.
Proof.
  induction 1 as [|a l H _ IH]; cbn [map cat_res]; intros b HW.
  - injection HW as <-. exists 0. split; [reflexivity|cbn; lia].
  - apply bind_ok in HW as (x & Hx & HW). apply bind_ok in HW as (y & Hy & [= <-]).
    destruct (H x Hx) as (n1 & Z1 & L1). destruct (IH y Hy) as (n2 & Z2 & L2).
    exists (n1 + n2). split; [|rewrite app_length; lia].
    cbn [sumZ fold_right]. fold (sumZ (map z l)). rewrite Z1, Z2. reflexivity.
Qed.

Lemma kalloc_fields (w : ty -> fval -> res bytes) (z : ty -> fval -> res Z) :
  (forall t f b, w t f = Ok b -> exists n, z t f = Ok n /\ Z.of_nat (length b) <= n) ->
  forall ts fs b, fwrite_all w ts fs = Ok b ->
  exists n, kalloc_all z ts fs = Ok n /\ Z.of_nat (length b) <= n.
Proof.
  intros H. induction ts as [|t ts IH]; intros [|f fs] b HW; cbn [fwrite_all kalloc_all] in *; try discriminate.
  - injection HW as <-. exists 0. split; [reflexivity|cbn; lia].
  - apply bind_ok in HW as (x & Hx & HW). apply bind_ok in HW as (y & Hy & [= <-]).
    destruct (H t f x Hx) as (n1 & -> & L1). destruct (IH fs y Hy) as (n2 & -> & L2). cbn [bind].
    exists (n1 + n2). split; [reflexivity|rewrite app_length; lia].
Qed.

Lemma py_l_write_len n hd : py_l_write n = Ok hd -> length hd = 4%nat.
Proof. intros H. apply py_l_write_put, put_len_ok in H as [-> _]. apply enc_length. Qed.

Theorem kalloc_enough E d : forall t f bs,
  fwrite kotlin E d t f = Ok bs -> exists n, kalloc E d t f = Ok n /\ Z.of_nat (length bs) <= n.
Proof.
  induction d as [|d IH]; intros t f bs H; [discriminate|]. cbn [fwrite kalloc] in *.
  destruct t as [sg w|db| | | | |t'|t'|t'|tk tv|t'|n].
  - destruct f; try discriminate. destruct (in_int sg w z); [|discriminate]. injection H as <-.
    exists (Z.of_nat (wbytes w)). rewrite enc_length. split; [reflexivity|lia].
  - destruct f; try discriminate. apply bind_ok in H as (z & _ & [= <-]). rewrite enc_length.
    eexists. split; [reflexivity|]. destruct db; cbn; lia.
  - destruct f; try discriminate. injection H as <-. rewrite enc_length. exists 1. split; [reflexivity|cbn; lia].
  - destruct f; try discriminate. apply bind_ok in H as (s & Hs & H).
    apply bind_ok in H as (hd & Hh & [= <-]). apply py_l_write_len in Hh. cbn [s_write kotlin] in Hs.
    apply kt_s_write_ok in Hs as [_ (cps & _ & -> & ->)].
    eexists. split; [reflexivity|]. rewrite app_length. pose proof (utf8_utf16_length cps). lia.
  - destruct f; try discriminate. apply bind_ok in H as ([s n] & _ & [= <-]).
    exists 12. rewrite app_length, !enc_length. split; [reflexivity|cbn; lia].
  - destruct f; try discriminate. apply bind_ok in H as ([s n] & _ & [= <-]).
    exists 12. rewrite app_length, !enc_length. split; [reflexivity|cbn; lia].
  - assert (X : f = FNone \/ f <> FNone) by (destruct f; auto; right; congruence).
    destruct X as [->|N].
    + injection H as <-. exists 1. rewrite enc_length. split; [reflexivity|cbn; lia].
    + assert (H' : (let* b := fwrite kotlin E d t' f in Ok (enc 1 1 ++ b)) = Ok bs)
        by (destruct f; try exact H; congruence).
      apply bind_ok in H' as (b & Hb & [= <-]). destruct (IH t' f b Hb) as (n & Z1 & L1).
      exists (1 + n). split; [destruct f; try (rewrite Z1; reflexivity); congruence|].
      rewrite app_length, enc_length. lia.
  - exact (IH t' f bs H).
  - destruct (is_u8 t'); destruct f; try discriminate.
    + apply bind_ok in H as (hd & Hh & [= <-]). apply py_l_write_len in Hh.
      eexists. split; [reflexivity|]. rewrite app_length. lia.
    + apply bind_ok in H as (hd & Hh & H). apply bind_ok in H as (b & Hb & [= <-]). apply py_l_write_len in Hh.
      destruct (sumZ_cat (fwrite kotlin E d t') (kalloc E d t') vs) with (b := b) as (n & Z1 & L1); [|exact Hb|].
      { apply Forall_forall. intros g _. apply IH. }
      rewrite Z1. exists (4 + n). split; [reflexivity|]. rewrite app_length. lia.
  - destruct f; try discriminate.
    apply bind_ok in H as (hd & Hh & H). apply bind_ok in H as (b & Hb & [= <-]). apply py_l_write_len in Hh.
    match type of Hb with cat_res (map ?w kvs) = _ => match goal with
      |- context [sumZ (map ?z kvs)] => destruct (sumZ_cat w z kvs) with (b := b) as (n & Z1 & L1); [|exact Hb|] end end.
    { apply Forall_forall. intros [k v] _ x Hx. cbn [fst snd] in *.
      apply bind_ok in Hx as (a & Ha & Hx). apply bind_ok in Hx as (c & Hc & [= <-]).
      destruct (IH _ _ _ Ha) as (n1 & -> & L1). destruct (IH _ _ _ Hc) as (n2 & -> & L2). cbn [bind].
      exists (n1 + n2). split; [reflexivity|]. rewrite app_length. lia. }
    rewrite Z1. exists (4 + n). split; [reflexivity|]. rewrite app_length. lia.
  - destruct f; try discriminate.
    apply bind_ok in H as (hd & Hh & H). apply bind_ok in H as (b & Hb & [= <-]). apply py_l_write_len in Hh.
    destruct (sumZ_cat (fwrite kotlin E d t') (kalloc E d t') vs) with (b := b) as (n & Z1 & L1); [|exact Hb|].
    { apply Forall_forall. intros g _. apply IH. }
    rewrite Z1. exists (4 + n). split; [reflexivity|]. rewrite app_length. lia.
  - destruct (defs E n) as [[ts|ne variants|k r| |b]|]; try discriminate.
    + destruct f; try discriminate. destruct (String.eqb n0 n); [|discriminate].
      exact (kalloc_fields _ _ IH ts vs bs H).
    + destruct f; try discriminate. destruct (String.eqb n0 n); [|discriminate].
      destruct (nth_error variants i) as [ts|]; [|discriminate].
      destruct (Z.of_nat i <? i32_max); [|discriminate].
      apply bind_ok in H as (b & Hb & [= <-]).
      destruct (kalloc_fields _ _ IH ts vs b Hb) as (m & -> & L1). cbn [bind].
      exists (4 + m). split; [reflexivity|]. rewrite app_length, enc_length. lia.
    + destruct f; try discriminate.
      destruct (String.eqb n0 n && (i <? k)%nat && (Z.of_nat i <? i32_max)); [|discriminate].
      injection H as <-. exists 4. rewrite enc_length. split; [reflexivity|cbn; lia].
    + destruct f; try discriminate. destruct (String.eqb n0 n && in_int false W64 h); [|discriminate].
      injection H as <-. exists 8. rewrite enc_length. split; [reflexivity|cbn; lia].
    + exact (IH b f bs H).
Qed.
