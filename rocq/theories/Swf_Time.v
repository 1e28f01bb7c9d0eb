(** What the converters of instants and durations do with doubles. *)
From Verif Require Import Base Utf8 Wire_Model Wire_Spec Wire_Proofs Fgn_Spec Fgn_Proofs
  Swf_Model Swf_Spec Swf_Dbl.
Local Open Scope Z_scope.

Lemma d_of_int_small z : Z.abs z <= 2 ^ 53 -> d_of_int z = z * one.
Proof. intros H. apply rnd_exact1, double_int, H. Qed.

Lemma d_of_int_err z : 2 ^ 53 * Z.abs (d_of_int z - z * one) <= Z.abs (z * one).
Proof. apply rnd_err1. Qed.

(** [Double(nanoseconds) / 1.0e9] *)
Lemma nanos_err n : 0 <= n < 1000000000 ->
  2 ^ 53 * Z.abs (d_div (d_of_int n) giga * 1000000000 - n * one) <= n * one + 2 ^ 52 * 1000000000.
Proof.
  intros H. rewrite d_of_int_small by lia. unfold d_div, giga. pose proof one_pos as OP.
  pose proof (rnd_err (n * one * one) (1000000000 * one) ltac:(lia)) as E.
  set (N := rnd (n * one * one) (1000000000 * one)) in *. clearbody N.
  replace (N * (1000000000 * one) - n * one * one) with ((N * 1000000000 - n * one) * one) in E by lia.
  rewrite Z.abs_mul, (Z.abs_eq one), (Z.abs_eq (n * one * one)) in E by nia.
  apply (Z.mul_le_mono_pos_r _ _ one); [lia|].
  set (A := Z.abs (N * 1000000000 - n * one)) in *. clearbody A.
  replace (n * one * one + 2 ^ 52 * (1000000000 * one)) with ((n * one + 2 ^ 52 * 1000000000) * one) in E by lia.
  lia.
Qed.

Lemma nanos_nonneg n : 0 <= n < 1000000000 -> 0 <= d_div (d_of_int n) giga.
Proof.
  intros H. pose proof one_pos. rewrite d_of_int_small by lia. unfold d_div, giga. apply rnd_nonneg; nia.
Qed.

Lemma nanos_0 : d_div (d_of_int 0) giga = 0.
Proof. reflexivity. Qed.

(** * Reading *)

Lemma dur_read_near t : 0 <= t ->
  m_dur to_swift t (dur_read (t / 1000000000) (t mod 1000000000)).
Proof.
  intros T. cbn [to_swift m_dur]. unfold ns, units, dur_read, d_add.
  pose proof (Z.div_mod t 1000000000 ltac:(lia)) as DM.
  pose proof (Z.mod_pos_bound t 1000000000 ltac:(lia)) as MB.
  assert (DP : 0 <= t / 1000000000) by (apply Z.div_pos; lia).
  set (s := t / 1000000000) in *. set (n := t mod 1000000000) in *.
  pose proof one_pos as OP.
  destruct (Z.eq_dec t 0) as [T0|T0].
  { assert (s = 0) as -> by lia. assert (n = 0) as -> by lia. rewrite T0. vm_compute. congruence. }
  pose proof (d_of_int_err s) as ED. rewrite (Z.abs_eq (s * one)) in ED by nia.
  pose proof (nanos_err n MB) as EN. pose proof (nanos_nonneg n MB) as PN.
  pose proof (rnd_nonneg (s * one) 1 ltac:(lia) ltac:(nia)) as PD. fold (d_of_int s) in PD.
  set (D := d_of_int s) in *. set (N := d_div (d_of_int n) giga) in *.
  pose proof (rnd_err1 (D + N)) as EX. rewrite (Z.abs_eq (D + N)) in EX by lia.
  set (X := rnd (D + N) 1) in *. clearbody X D N.
  set (S := s * one) in *. set (U := n * one) in *. set (TT := t * one).
  assert (TE : TT = 1000000000 * S + U) by (unfold TT, S, U; nia).
  assert (1 * one <= TT) by (unfold TT; nia).
  assert (0 <= S) by (unfold S; nia). assert (0 <= U) by (unfold U; nia).
  change (2 ^ 51) with 2251799813685248. change (2 ^ 52) with 4503599627370496 in *.
  change (2 ^ 53) with 9007199254740992 in *. change (2 ^ 100) with 1267650600228229401496703205376 in *.
  clearbody TT S U. lia.
Qed.

Lemma date_read_near t : ~ (-1000000000 < t < 0) ->
  m_time to_swift t (date_read (t_secs t) (t_nanos t)).
Proof.
  intros T. cbn [to_swift m_time]. unfold ns, units, since1970, date_read, t_secs, t_nanos, d_sub, d_add, epoch.
  pose proof (Z.div_mod (Z.abs t) 1000000000 ltac:(lia)) as DM.
  pose proof (Z.mod_pos_bound (Z.abs t) 1000000000 ltac:(lia)) as MB.
  assert (DP : 0 <= Z.abs t / 1000000000) by (apply Z.div_pos; lia).
  set (a := Z.abs t / 1000000000) in *. set (n := Z.abs t mod 1000000000) in *.
  set (s := (if 0 <=? t then 1 else -1) * a).
  assert (SG : (0 <=? s) = (0 <=? t)).
  { unfold s. destruct (Z.leb_spec 0 t) as [L|G]; apply Z.leb_le || apply Z.leb_gt; lia. }
  rewrite SG. pose proof one_pos as OP.
  pose proof (d_of_int_err s) as ED. pose proof (nanos_err n MB) as EN. pose proof (nanos_nonneg n MB) as PN.
  assert (NEG : d_div (- d_of_int n) giga = - d_div (d_of_int n) giga).
  { unfold d_div. rewrite Z.mul_opp_l. apply rnd_opp. }
  rewrite NEG. clear NEG.
  set (D := d_of_int s) in *. set (N := d_div (d_of_int n) giga) in *.
  set (C := 978307200 * one) in *.
  pose proof (rnd_err1 (D - C)) as EB. set (B := rnd (D - C) 1) in *.
  assert (CB : 978307200 * 2 ^ 100 <= C) by (unfold C; lia).
  replace ((Z.abs t + 978307200 * 1000000000) * one) with (Z.abs t * one + C * 1000000000) by (unfold C; lia).
  assert (TA : Z.abs t * one = 1000000000 * (a * one) + n * one) by nia.
  assert (SA : Z.abs (s * one) = a * one).
  { unfold s. destruct (Z.leb_spec 0 t); nia. }
  rewrite SA in ED.
  assert (SE : s * one = if 0 <=? t then a * one else - (a * one)) by (unfold s; destruct (Z.leb_spec 0 t); lia).
  assert (TE : t * one = if 0 <=? t then Z.abs t * one else - (Z.abs t * one)).
  { destruct (Z.leb_spec 0 t); nia. }
  assert (0 <= a * one) by nia. assert (0 <= n * one) by nia.
  set (AS := a * one) in *. set (U := n * one) in *. set (TT := Z.abs t * one) in *.
  destruct (0 <=? t).
  - pose proof (rnd_err1 (B + N)) as EX. set (X := rnd (B + N) 1) in *.
    rewrite TE. clearbody X B D N AS U TT C. rewrite SE in ED.
    change (2 ^ 51) with 2251799813685248. change (2 ^ 52) with 4503599627370496 in *.
    change (2 ^ 53) with 9007199254740992 in *. change (2 ^ 100) with 1267650600228229401496703205376 in *. lia.
  - pose proof (rnd_err1 (B + - N)) as EX. set (X := rnd (B + - N) 1) in *.
    rewrite TE. clearbody X B D N AS U TT C. rewrite SE in ED.
    change (2 ^ 51) with 2251799813685248. change (2 ^ 52) with 4503599627370496 in *.
    change (2 ^ 53) with 9007199254740992 in *. change (2 ^ 100) with 1267650600228229401496703205376 in *. lia.
Qed.

Lemma dur_read_whole s : 0 <= s <= 2 ^ 52 -> dur_read s 0 = s * one.
Proof.
  intros H. unfold dur_read, d_add. rewrite nanos_0, Z.add_0_r, d_of_int_small by lia.
  apply rnd_exact1, double_int. lia.
Qed.

Lemma date_read_whole s : - 2 ^ 52 <= s <= 2 ^ 52 -> date_read s 0 = (s - 978307200) * one.
Proof.
  intros H. unfold date_read, d_sub, d_add, epoch. rewrite d_of_int_small by lia.
  replace (s * one - 978307200 * one) with ((s - 978307200) * one) by lia.
  rewrite (rnd_exact1 ((s - 978307200) * one)) by (apply double_int; lia).
  change (d_div (d_of_int 0) giga) with 0. change (d_div (- d_of_int 0) giga) with 0.
  rewrite Z.add_0_r. destruct (0 <=? s); apply rnd_exact1, double_int; lia.
Qed.

(** * Writing *)

Lemma frac_lt o b f P : 2 ^ 100 <= b -> o = 2 ^ 53 * b -> 0 <= f <= o - b ->
  2 ^ 53 * Z.abs (P - f * 1000000000) <= f * 1000000000 + 2 ^ 52 -> P < 1000000000 * o.
Proof.
  change (2 ^ 53) with 9007199254740992. change (2 ^ 52) with 4503599627370496.
  change (2 ^ 100) with 1267650600228229401496703205376. lia.
Qed.

Lemma frac_near o b f P m : 2 ^ 100 <= b -> o = 2 ^ 53 * b -> 0 <= f <= o - b ->
  2 ^ 53 * Z.abs (P - f * 1000000000) <= f * 1000000000 + 2 ^ 52 ->
  m <= P < m + o -> (m + o <= f * 1000000000 -> m + o <= P) ->
  - o < 2 ^ 22 * (f * 1000000000 - m) /\ f * 1000000000 - m < o.
Proof.
  change (2 ^ 53) with 9007199254740992. change (2 ^ 52) with 4503599627370496.
  change (2 ^ 100) with 1267650600228229401496703205376. change (2 ^ 22) with 4194304. lia.
Qed.

Lemma double_gap f : double f -> 0 <= f < one ->
  exists b, 2 ^ 100 <= b /\ one = 2 ^ 53 * b /\ f <= one - b.
Proof.
  intros D F. exists (2 ^ 1021). refine (conj _ (conj (one_pow 1021 _) (double_frac f D F))).
  - apply Z.pow_le_mono_r; lia.
  - lia.
Qed.

Lemma split_secs_ok limit x s n : double x -> 0 <= x -> split_secs limit x = Ok (s, n) ->
  s = x / one /\ 0 <= s < limit /\ 0 <= n < 1000000000 /\
  m_dur from_swift (s * 1000000000 + n) x.
Proof.
  intros D X H. unfold split_secs in H. pose proof one_pos as OP.
  destruct (Z.leb_spec limit (x / one)) as [|LM]; [discriminate|].
  destruct (double_parts x D X) as [DW DF].
  assert (E1 : d_of_int (x / one) = x / one * one) by (apply rnd_exact1, DW).
  pose proof (Z.div_mod x one ltac:(lia)) as DM. pose proof (Z.mod_pos_bound x one ltac:(lia)) as MB.
  assert (E2 : d_sub x (d_of_int (x / one)) = x mod one).
  { unfold d_sub. rewrite E1. replace (x - x / one * one) with (x mod one) by lia. apply rnd_exact1, DF. }
  rewrite E2 in H. assert (SP : 0 <= x / one) by (apply Z.div_pos; lia).
  destruct (double_gap _ DF MB) as (b & B & O2 & FB). set (f := x mod one) in *.
  unfold d_mul, giga in H. replace (f * (1000000000 * one)) with (f * 1000000000 * one) in H by lia.
  pose proof (rnd_err (f * 1000000000 * one) one ltac:(lia)) as E.
  assert (GE : forall j, 0 <= j <= 1000000000 -> j * one <= f * 1000000000 ->
                 j * one <= rnd (f * 1000000000 * one) one).
  { intros j J L. clear - OP J L.
    apply rnd_ge; [lia|apply double_int; lia|apply Z.mul_nonneg_nonneg; lia|apply Z.mul_le_mono_nonneg_r; lia]. }
  assert (FP : 0 <= f * 1000000000 * one) by (clear - OP MB; apply Z.mul_nonneg_nonneg; lia).
  pose proof (rnd_nonneg (f * 1000000000 * one) one ltac:(lia) FP) as PP.
  set (P := rnd (f * 1000000000 * one) one) in *. clearbody P.
  replace (P * one - f * 1000000000 * one) with ((P - f * 1000000000) * one) in E by lia.
  rewrite Z.abs_mul, (Z.abs_eq one), (Z.abs_eq (f * 1000000000 * one)) in E by (exact FP || lia).
  assert (EP : 2 ^ 53 * Z.abs (P - f * 1000000000) <= f * 1000000000 + 2 ^ 52).
  { clear - OP E. apply (Z.mul_le_mono_pos_r _ _ one); [lia|]. lia. }
  clear E.
  pose proof (frac_lt one _ f P B O2 ltac:(lia) EP) as PU.
  destruct ((P / one <? 0) || (modulus 4 <=? P / one)); [discriminate|].
  injection H as <- <-.
  pose proof (Z.div_mod P one ltac:(lia)) as PM. pose proof (Z.mod_pos_bound P one ltac:(lia)) as PB.
  assert (N0 : 0 <= P / one) by (apply Z.div_pos; lia).
  assert (N1 : P / one < 1000000000) by (apply Z.div_lt_upper_bound; lia).
  split; [reflexivity|]. split; [lia|]. split; [lia|].
  cbn [from_swift m_dur]. unfold ns, units. set (n := P / one) in *. set (w := x / one) in *.
  assert (XE : x * 1000000000 - (w * 1000000000 + n) * one = f * 1000000000 - n * one)
    by (clear - DM; rewrite DM; ring).
  rewrite XE. rewrite Z.mul_1_l. pose proof (GE (n + 1) ltac:(lia)) as G.
  rewrite Z.mul_add_distr_r, Z.mul_1_l in G.
  exact (frac_near one _ f P (n * one) B O2 ltac:(lia) EP ltac:(lia) G).
Qed.

Lemma split_secs_whole limit s : 0 <= s <= 2 ^ 52 -> s < limit ->
  split_secs limit (s * one) = Ok (s, 0).
Proof.
  intros H L. unfold split_secs. pose proof one_pos as OP. rewrite Z.div_mul by lia.
  destruct (Z.leb_spec limit s); [lia|]. rewrite d_of_int_small by lia.
  unfold d_sub. rewrite Z.sub_diag. change (d_mul (rnd 0 1) giga) with 0. rewrite Z.div_0_l by lia.
  reflexivity.
Qed.

Lemma i64_max_double : d_of_int i64_max = 2 ^ 63 * one.
Proof. vm_compute. reflexivity. Qed.

Lemma dur_write_ok x s n : double x -> dur_write x = Ok (s, n) ->
  exists t, m_dur from_swift t x /\ 0 <= t / 1000000000 < modulus 8 /\
  write_dur t = Ok (enc 8 s ++ enc 4 n).
Proof.
  intros D H. unfold dur_write in H. destruct (_ <? _) in H; [discriminate|].
  destruct (Z.ltb_spec x 0); [discriminate|].
  destruct (split_secs_ok _ _ _ _ D ltac:(assumption) H) as (E & S & N & M).
  exists (s * 1000000000 + n). split; [exact M|].
  assert (E1 : (s * 1000000000 + n) / 1000000000 = s)
    by (symmetry; apply Z.div_unique with n; lia).
  assert (E2 : (s * 1000000000 + n) mod 1000000000 = n)
    by (symmetry; apply Z.mod_unique with s; lia).
  unfold write_dur, nanos_per_sec. rewrite E1, E2. split; [exact S|reflexivity].
Qed.

Lemma dur_write_whole s : 0 <= s <= 2 ^ 52 -> dur_write (s * one) = Ok (s, 0).
Proof.
  intros H. unfold dur_write. rewrite i64_max_double. pose proof one_pos as OP.
  rewrite Z.div_mul by lia. destruct (Z.ltb_spec (2 ^ 63 * one) (s * one)); [nia|].
  destruct (Z.ltb_spec (s * one) 0); [nia|]. apply split_secs_whole; [exact H|].
  change (modulus 8) with 18446744073709551616. lia.
Qed.

Lemma date_write_ok x s n : double x -> ~ (- one < since1970 x < 0) ->
  date_write x = Ok (s, n) ->
  exists t, m_time from_swift t x /\ - half 8 <= t / 1000000000 < half 8 /\
  write_time t = Ok (enc 8 s ++ enc 4 n).
Proof.
  intros D LI H. unfold date_write in H. destruct (_ <? _) in H; [discriminate|].
  pose proof one_pos as OP.
  assert (DD : double (d_add x epoch)) by (apply rnd_double; lia).
  pose proof (rnd_err1 (x + epoch)) as ER. fold (d_add x epoch) in ER.
  assert (SI : since1970 x = x + epoch) by reflexivity. rewrite SI in LI.
  assert (LO : d_add x epoch < 0 -> d_add x epoch <= - one).
  { intros NG. destruct (Z_le_gt_dec 0 (x + epoch)) as [P|P].
    { pose proof (rnd_nonneg (x + epoch) 1 ltac:(lia) P) as Q. fold (d_add x epoch) in Q. lia. }
    assert (one <= rnd (- (x + epoch)) 1).
    { apply rnd_ge; [lia| |lia|lia]. rewrite <- (Z.mul_1_l one). apply double_int. lia. }
    rewrite rnd_opp in H0. fold (d_add x epoch) in H0. lia. }
  assert (ZR : d_add x epoch < 0 -> x + epoch < 0).
  { intros NG. destruct (Z_lt_ge_dec (x + epoch) 0) as [|P]; [assumption|].
    pose proof (rnd_nonneg (x + epoch) 1 ltac:(lia) ltac:(lia)) as Q. fold (d_add x epoch) in Q. lia. }
  assert (PR : 0 <= d_add x epoch -> 0 <= x + epoch).
  { intros NG. destruct (Z_le_gt_dec 0 (x + epoch)) as [|P]; [assumption|]. exfalso.
    assert (2 ^ 53 * Z.abs (d_add x epoch - (x + epoch)) <= Z.abs (x + epoch)) by exact ER. lia. }
  set (del := d_add x epoch) in *. clearbody del.
  apply bind_ok in H as ([a m] & H & [= <- <-]).
  destruct (split_secs_ok _ _ _ _ (double_abs _ DD) ltac:(lia) H) as (E & S & N & [M1 M2]).
  unfold ns, units in M1, M2.
  assert (AP : 1 <= a \/ 0 <= del).
  { destruct (Z_le_gt_dec 0 del) as [|P]; [right; assumption|left]. rewrite E.
    apply Z.div_le_lower_bound; lia. }
  set (g := if del <? 0 then -1 else 1).
  exists (g * (a * 1000000000 + m)).
  assert (AB : Z.abs (g * (a * 1000000000 + m)) = a * 1000000000 + m).
  { unfold g. destruct (del <? 0); lia. }
  split; [|split].
  - cbn [from_swift m_time]. unfold ns, units. rewrite SI, Z.mul_1_l.
    set (y := x + epoch) in *. set (k := a * 1000000000 + m) in *.
    change (2 ^ 51) with 2251799813685248. change (2 ^ 53) with 9007199254740992 in *.
    change (2 ^ 22) with 4194304 in *. rewrite Z.mul_1_l in *.
    unfold g. destruct (Z.ltb_spec del 0) as [NG|NG].
    + specialize (ZR NG). replace (-1 * k * one) with (- (k * one)) by lia.
      set (ko := k * one) in *. clearbody ko. clear LI LO PR AB AP. lia.
    + specialize (PR NG). replace (1 * k * one) with (k * one) by lia.
      set (ko := k * one) in *. clearbody ko. clear LI LO ZR AB AP.
      destruct (Z.eq_dec y 0); lia.
  - rewrite half_8 in *. unfold g. destruct (del <? 0).
    + split; [apply Z.div_le_lower_bound; lia|]. apply Z.div_lt_upper_bound; lia.
    + split; [apply Z.div_le_lower_bound; lia|]. apply Z.div_lt_upper_bound; lia.
  - unfold write_time, nanos_per_sec. rewrite AB.
    assert (E1 : (a * 1000000000 + m) / 1000000000 = a)
      by (symmetry; apply Z.div_unique with m; lia).
    assert (E2 : (a * 1000000000 + m) mod 1000000000 = m)
      by (symmetry; apply Z.mod_unique with a; lia).
    rewrite E1, E2. rewrite half_8 in S. unfold i64_max.
    destruct (Z.leb_spec a 9223372036854775807); [|lia].
    assert (SG : (if 0 <=? g * (a * 1000000000 + m) then 1 else -1) * a = g * a).
    { unfold g. destruct (Z.ltb_spec del 0).
      - destruct (Z.leb_spec 0 (-1 * (a * 1000000000 + m))); lia.
      - destruct (Z.leb_spec 0 (1 * (a * 1000000000 + m))); lia. }
    now rewrite SG.
Qed.

Lemma date_write_whole s : - 2 ^ 52 <= s <= 2 ^ 52 ->
  date_write ((s - 978307200) * one) = Ok (s, 0).
Proof.
  intros H. unfold date_write, d_add, epoch. pose proof one_pos as OP.
  replace ((s - 978307200) * one + 978307200 * one) with (s * one) by lia.
  rewrite rnd_exact1 by (apply double_int; lia). rewrite i64_max_double.
  replace (Z.abs (s * one)) with (Z.abs s * one) by nia. rewrite Z.div_mul by lia.
  destruct (Z.ltb_spec (2 ^ 63 * one) (Z.abs s * one)); [nia|].
  rewrite split_secs_whole; [|lia|rewrite half_8; lia]. cbn [bind].
  destruct (Z.ltb_spec (s * one) 0); do 2 f_equal; nia.
Qed.
