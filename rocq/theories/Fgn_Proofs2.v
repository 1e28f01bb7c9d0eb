(** Floats: widening keeps the number, narrowing rounds to nearest. *)
From Verif Require Import Base Fgn_Model Fgn_Spec.
Local Open Scope Z_scope.

Lemma e22 : 2 ^ 22 = 4194304. Proof. reflexivity. Qed.
Lemma e23 : 2 ^ 23 = 8388608. Proof. reflexivity. Qed.
Lemma e29 : 2 ^ 29 = 536870912. Proof. reflexivity. Qed.
Lemma e31 : 2 ^ 31 = 2147483648. Proof. reflexivity. Qed.
Lemma e32 : 2 ^ 32 = 4294967296. Proof. reflexivity. Qed.
Lemma e52 : 2 ^ 52 = 4503599627370496. Proof. reflexivity. Qed.
Lemma e63 : 2 ^ 63 = 9223372036854775808. Proof. reflexivity. Qed.
Lemma e64 : 2 ^ 64 = 18446744073709551616. Proof. reflexivity. Qed.

(** * Bit fields *)

Lemma parts64 f : is_f64 f ->
  0 <= sign64 f <= 1 /\ 0 <= exp64 f < 2048 /\ 0 <= man64 f < p52 /\
  f = sign64 f * p63 + exp64 f * p52 + man64 f.
Proof.
  unfold is_f64, sign64, exp64, man64, p63, p52. rewrite e52, e63, e64. intros H.
  pose proof (Z.div_mod f 9223372036854775808 ltac:(lia)).
  pose proof (Z.mod_pos_bound f 9223372036854775808 ltac:(lia)).
  pose proof (Z.div_mod f 4503599627370496 ltac:(lia)).
  pose proof (Z.mod_pos_bound f 4503599627370496 ltac:(lia)).
  pose proof (Z.div_mod (f / 4503599627370496) 2048 ltac:(lia)).
  pose proof (Z.mod_pos_bound (f / 4503599627370496) 2048 ltac:(lia)).
  assert (f / 4503599627370496 / 2048 = f / 9223372036854775808).
  { rewrite Z.div_div by lia. reflexivity. }
  lia.
Qed.

Lemma make64 s e m : 0 <= s <= 1 -> 0 <= e < 2048 -> 0 <= m < p52 ->
  let f := s * p63 + e * p52 + m in
  is_f64 f /\ sign64 f = s /\ exp64 f = e /\ man64 f = m.
Proof.
  intros Hs He Hm f. unfold p52, p63 in *.
  assert (F : is_f64 f) by (unfold is_f64, f; rewrite e64; lia).
  split; [exact F|]. apply parts64 in F as (A & B & C & D).
  unfold p52, p63 in *. unfold f in D at 1. lia.
Qed.

Lemma parts32 b : is_f32 b ->
  0 <= sign32 b <= 1 /\ 0 <= exp32 b < 256 /\ 0 <= man32 b < p23 /\
  b = sign32 b * p31 + exp32 b * p23 + man32 b.
Proof.
  unfold is_f32, sign32, exp32, man32, p31, p23. rewrite e23, e31, e32. intros H.
  pose proof (Z.div_mod b 2147483648 ltac:(lia)).
  pose proof (Z.mod_pos_bound b 2147483648 ltac:(lia)).
  pose proof (Z.div_mod b 8388608 ltac:(lia)).
  pose proof (Z.mod_pos_bound b 8388608 ltac:(lia)).
  pose proof (Z.div_mod (b / 8388608) 256 ltac:(lia)).
  pose proof (Z.mod_pos_bound (b / 8388608) 256 ltac:(lia)).
  assert (b / 8388608 / 256 = b / 2147483648).
  { rewrite Z.div_div by lia. reflexivity. }
  lia.
Qed.

Lemma make32 s e m : 0 <= s <= 1 -> 0 <= e < 256 -> 0 <= m < p23 ->
  let b := s * p31 + e * p23 + m in
  is_f32 b /\ sign32 b = s /\ exp32 b = e /\ man32 b = m.
Proof.
  intros Hs He Hm b. unfold p23, p31 in *.
  assert (F : is_f32 b) by (unfold is_f32, b; rewrite e32; lia).
  split; [exact F|]. apply parts32 in F as (A & B & C & D).
  unfold p23, p31 in *. unfold b in D at 1. lia.
Qed.

(** * Magnitudes *)

Definition mg (p e m : Z) : Z := if e =? 0 then m else (p + m) * 2 ^ (e - 1).

Lemma mag64_mg f : mag64 f = mg p52 (exp64 f) (man64 f).
Proof. reflexivity. Qed.
Lemma mag32_mg b : mag32 b = mg p23 (exp32 b) (man32 b) * 2 ^ 925.
Proof. reflexivity. Qed.

Lemma mg_bounds p e m : 0 < p -> 0 <= e -> 0 <= m < p ->
  (if e =? 0 then 0 else p * 2 ^ (e - 1)) <= mg p e m < p * 2 ^ e.
Proof.
  intros Hp He Hm. unfold mg. destruct (Z.eqb_spec e 0) as [->|N]; [cbn; lia|].
  replace (2 ^ e) with (2 * 2 ^ (e - 1)) by (rewrite <- Z.pow_succ_r by lia; f_equal; lia).
  assert (0 < 2 ^ (e - 1)) by (apply Z.pow_pos_nonneg; lia). nia.
Qed.

Lemma mg_lt p e m e' m' : 0 < p -> 0 <= e -> 0 <= m < p -> 0 <= m' < p -> e < e' ->
  mg p e m < mg p e' m'.
Proof.
  intros Hp He Hm Hm' L.
  pose proof (mg_bounds p e m Hp He Hm). pose proof (mg_bounds p e' m' Hp ltac:(lia) Hm').
  destruct (Z.eqb_spec e' 0); [lia|].
  assert (2 ^ e <= 2 ^ (e' - 1)) by (apply Z.pow_le_mono_r; lia). nia.
Qed.

Lemma mg_inj p e m e' m' : 0 < p -> 0 <= e -> 0 <= e' -> 0 <= m < p -> 0 <= m' < p ->
  mg p e m = mg p e' m' -> e = e' /\ m = m'.
Proof.
  intros Hp He He' Hm Hm' H.
  assert (e = e') as <-.
  { destruct (Z.lt_trichotomy e e') as [L|[L|L]]; [|exact L|].
    - pose proof (mg_lt p e m e' m' Hp He Hm Hm' L). lia.
    - pose proof (mg_lt p e' m' e m Hp He' Hm' Hm L). lia. }
  split; [reflexivity|]. unfold mg in H. destruct (Z.eqb_spec e 0); [exact H|].
  assert (0 < 2 ^ (e - 1)) by (apply Z.pow_pos_nonneg; lia). nia.
Qed.

Lemma f64_unique f f' : is_f64 f -> is_f64 f' -> sign64 f = sign64 f' -> mag64 f = mag64 f' -> f = f'.
Proof.
  intros H H' S1 M. apply parts64 in H as (A & B & C & D). apply parts64 in H' as (A' & B' & C' & D').
  rewrite !mag64_mg in M. apply mg_inj in M as [X Y]; try lia.
Qed.

Lemma p925 : 0 < 2 ^ 925. Proof. apply Z.pow_pos_nonneg; lia. Qed.

Lemma f32_unique b b' : is_f32 b -> is_f32 b' -> sign32 b = sign32 b' -> mag32 b = mag32 b' -> b = b'.
Proof.
  intros H H' S1 M. apply parts32 in H as (A & B & C & D). apply parts32 in H' as (A' & B' & C' & D').
  rewrite !mag32_mg in M. apply Z.mul_reg_r in M; [|pose proof p925; lia].
  apply mg_inj in M as [X Y]; try lia.
Qed.

(** * Widening *)

Lemma widen_number b : is_f32 b -> (nan32 b -> quiet32 b) -> number_of b (widen b).
Proof.
  intros H Q. pose proof (parts32 b H) as (A & B & C & D).
  unfold number_of, widen. change (b / p31) with (sign32 b).
  change ((b / p23) mod 256) with (exp32 b). change (b mod p23) with (man32 b).
  set (s := sign32 b) in *. 
  destruct (Z.eqb_spec (exp32 b) 255) as [E|E].
  - destruct (Z.eqb_spec (man32 b) 0) as [M|M].
    + destruct (make64 s 2047 0) as (F & F1 & F2 & F3); [lia|lia|unfold p52; lia|].
      rewrite Z.add_0_r in *. split; [exact F|]. split; [exact F1|]. right; left.
      split; split; assumption.
    + assert (QQ : 2 ^ 22 <= man32 b) by (apply Q; split; assumption). rewrite e22 in QQ.
      destruct (Z.ltb_spec (man32 b) 4194304); [lia|].
      destruct (make64 s 2047 (man32 b * p29)) as (F & F1 & F2 & F3); [lia|lia|unfold p52, p29, p23 in *; lia|].
      split; [exact F|]. split; [exact F1|]. right; right.
      split; [split; assumption|]. split; [unfold quiet32; rewrite e22; exact QQ|].
      split; [split; [assumption|]|]; rewrite F3; unfold p29; [lia|rewrite e29; reflexivity].
  - destruct (Z.eqb_spec (exp32 b) 0) as [E0|E0].
    + destruct (Z.eqb_spec (man32 b) 0) as [M|M].
      * destruct (make64 s 0 0) as (F & F1 & F2 & F3); [lia|lia|unfold p52; lia|].
        replace (s * p63 + 0 * p52 + 0) with (s * p63) in * by lia.
        split; [exact F|]. split; [exact F1|]. left. split; [exact E|].
        split; [unfold fin64; lia|]. rewrite mag64_mg, mag32_mg, F2, F3, E0, M. reflexivity.
      * destruct (Z.log2_spec (man32 b) ltac:(lia)) as [L1 L2].
        set (k := Z.log2 (man32 b)) in *. rewrite Z.pow_succ_r in L2 by apply Z.log2_nonneg.
        assert (K0 : 0 <= k) by apply Z.log2_nonneg.
        assert (K1 : k < 23).
        { apply (Z.pow_lt_mono_r_iff 2); try lia. rewrite e23. unfold p23 in C. lia. }
        assert (P1 : 2 ^ k * 2 ^ (52 - k) = p52).
        { rewrite <- Z.pow_add_r by lia. replace (k + (52 - k)) with 52 by lia. reflexivity. }
        assert (P0 : 0 < 2 ^ (52 - k)) by (apply Z.pow_pos_nonneg; lia).
        destruct (make64 s (k + 874) ((man32 b - 2 ^ k) * 2 ^ (52 - k))) as (F & F1 & F2 & F3);
          [lia|lia|nia|].
        split; [exact F|]. split; [exact F1|]. left. split; [exact E|].
        split; [unfold fin64; lia|]. rewrite mag64_mg, mag32_mg, F2, F3, E0.
        unfold mg. cbn [Z.eqb]. destruct (Z.eqb_spec (k + 874) 0); [lia|].
        rewrite <- P1. replace (k + 874 - 1) with (k + 873) by lia.
        replace (2 ^ 925) with (2 ^ (52 - k) * 2 ^ (k + 873)); [lia|].
        rewrite <- Z.pow_add_r by lia. f_equal. lia.
    + destruct (make64 s (exp32 b + 896) (man32 b * p29)) as (F & F1 & F2 & F3);
        [lia|lia|unfold p52, p29, p23 in *; lia|].
      split; [exact F|]. split; [exact F1|]. left. split; [exact E|].
      split; [unfold fin64; lia|]. rewrite mag64_mg, mag32_mg, F2, F3.
      unfold mg. destruct (Z.eqb_spec (exp32 b + 896) 0); [lia|]. destruct (Z.eqb_spec (exp32 b) 0); [lia|].
      change p52 with (p23 * p29). replace (exp32 b + 896 - 1) with ((exp32 b - 1) + 896) by lia.
      rewrite Z.pow_add_r by lia. replace (2 ^ 925) with (p29 * 2 ^ 896) by reflexivity. lia.
Qed.

Lemma number_of_widen b f : is_f32 b -> number_of b f -> widen b = f.
Proof.
  intros H N.
  assert (Q : nan32 b -> quiet32 b).
  { intros [X Y]. destruct N as (_ & _ & [[F _]|[[[_ F] _]|(_ & Qq & _)]]); [elim F; exact X|congruence|exact Qq]. }
  pose proof (widen_number b H Q) as W.
  destruct N as (F & S1 & N), W as (F' & S' & W).
  destruct N as [(A1 & A2 & A3)|[(A1 & A2)|(A1 & A2 & A3 & A4)]];
    destruct W as [(B1 & B2 & B3)|[(B1 & B2)|(B1 & B2 & B3 & B4)]].
  - apply f64_unique; congruence.
  - destruct B1. contradiction.
  - destruct B1. contradiction.
  - destruct A1. contradiction.
  - destruct A2 as [X1 X2], B2 as [Y1 Y2].
    apply parts64 in F as (_ & _ & _ & ->). apply parts64 in F' as (_ & _ & _ & ->). congruence.
  - destruct A1, B1. contradiction.
  - destruct A1. contradiction.
  - destruct A1, B1. contradiction.
  - destruct A3 as [X1 X2], B3 as [Y1 Y2].
    apply parts64 in F as (_ & _ & _ & ->). apply parts64 in F' as (_ & _ & _ & ->). congruence.
Qed.

(** * Rounding *)

Lemma rhe_half n k : 0 < k -> 2 * Z.abs (rhe n k * k - n) <= k.
Proof.
  intros K. unfold rhe.
  pose proof (Z.div_mod n k ltac:(lia)). pose proof (Z.mod_pos_bound n k K).
  destruct (Z.ltb_spec (2 * (n mod k)) k); [nia|].
  destruct (Z.ltb_spec k (2 * (n mod k))); [nia|].
  destruct (Z.even (n / k)); nia.
Qed.

Lemma rhe_nearest n k n' : 0 < k -> Z.abs (rhe n k * k - n) <= Z.abs (n' * k - n).
Proof.
  intros K. pose proof (rhe_half n k K) as H.
  destruct (Z.eq_dec n' (rhe n k)) as [->|N]; [lia|].
  assert (k <= Z.abs (n' * k - rhe n k * k)); [|lia].
  rewrite <- Z.mul_sub_distr_r, Z.abs_mul, (Z.abs_eq k) by lia. nia.
Qed.

(** The case of a finite double: [n * 2^D] is the multiple of [2^D] nearest to the
    significand, and no f32 lies closer. *)
Section Round.
  Variables mant ex q n : Z.
  Hypothesis Hm : 0 <= mant < 2 * p52.
  Hypothesis Hex : -1074 <= ex <= 971.
  Hypothesis Hnorm : -1074 < ex -> p52 <= mant.
  Hypothesis Hq : q = Z.max (ex + 29) (-149).
  Hypothesis Hn : n = rhe mant (2 ^ (q - ex)).

  Let D := q - ex.
  Let X := mant * 2 ^ (ex + 1074).
  Let U := 2 ^ (q + 1074).

  Lemma round_D : 29 <= D. Proof. unfold D. lia. Qed.

  Lemma round_U : U = 2 ^ D * 2 ^ (ex + 1074).
  Proof. unfold U, D. rewrite <- Z.pow_add_r by lia. f_equal. lia. Qed.

  Lemma round_u : 0 < 2 ^ (ex + 1074). Proof. apply Z.pow_pos_nonneg; lia. Qed.
  Lemma round_d : 0 < 2 ^ D. Proof. apply Z.pow_pos_nonneg; unfold D; lia. Qed.

  Lemma round_near n' : Z.abs (n * U - X) <= Z.abs (n' * U - X).
  Proof.
    rewrite round_U. unfold X. pose proof round_u. pose proof round_d.
    pose proof (rhe_nearest mant (2 ^ D) n' round_d) as R. rewrite Hn. fold D.
    replace (rhe mant (2 ^ D) * (2 ^ D * 2 ^ (ex + 1074)) - mant * 2 ^ (ex + 1074))
      with ((rhe mant (2 ^ D) * 2 ^ D - mant) * 2 ^ (ex + 1074)) by lia.
    replace (n' * (2 ^ D * 2 ^ (ex + 1074)) - mant * 2 ^ (ex + 1074))
      with ((n' * 2 ^ D - mant) * 2 ^ (ex + 1074)) by lia.
    rewrite !Z.abs_mul. nia.
  Qed.

  Lemma round_half : 2 * Z.abs (n * U - X) <= U.
  Proof.
    rewrite round_U. unfold X. pose proof round_u. pose proof round_d.
    pose proof (rhe_half mant (2 ^ D) round_d) as R. rewrite Hn. fold D.
    replace (rhe mant (2 ^ D) * (2 ^ D * 2 ^ (ex + 1074)) - mant * 2 ^ (ex + 1074))
      with ((rhe mant (2 ^ D) * 2 ^ D - mant) * 2 ^ (ex + 1074)) by lia.
    rewrite !Z.abs_mul, (Z.abs_eq (2 ^ (ex + 1074))) by lia. nia.
  Qed.

  (** above the lowest binade the significand has its leading bit *)
  Lemma round_lead : -149 < q -> p23 * U <= X.
  Proof.
    intros Q. rewrite round_U. unfold X. pose proof round_u.
    assert (D = 29) as -> by (unfold D; lia). rewrite e29.
    assert (p52 <= mant) by (apply Hnorm; lia). unfold p23, p52 in *. nia.
  Qed.

  Lemma round_top : X < 2 * p23 * U.
  Proof.
    rewrite round_U. unfold X. pose proof round_u. pose proof round_d.
    assert (2 ^ 29 <= 2 ^ D) by (apply Z.pow_le_mono_r; [lia|apply round_D]). rewrite e29 in *.
    unfold p23, p52 in *. nia.
  Qed.

  Lemma round_Upos : 0 < U. Proof. unfold U. apply Z.pow_pos_nonneg; lia. Qed.

  Lemma round_n : 0 <= n <= 2 * p23 /\ (-149 < q -> p23 <= n).
  Proof.
    pose proof round_half as H. pose proof round_top as T. pose proof round_Upos as P.
    assert (0 <= X) by (unfold X; pose proof round_u; nia).
    split; [split|].
    - nia.
    - nia.
    - intros Q. pose proof (round_lead Q). nia.
  Qed.

  Lemma U_q : U = 2 ^ (q + 149) * 2 ^ 925.
  Proof. unfold U. rewrite <- Z.pow_add_r by lia. f_equal. lia. Qed.

  (** every finite f32 is at least as far away *)
  Lemma round_f32 e m : 0 <= e < 255 -> 0 <= m < p23 ->
    Z.abs (n * U - X) <= Z.abs (mg p23 e m * 2 ^ 925 - X).
  Proof.
    intros He Hm'. destruct (Z_le_gt_dec (q + 150) (Z.max e 1)) as [L|L].
    - (* a multiple of U *)
      assert (exists n', mg p23 e m * 2 ^ 925 = n' * U) as (n' & ->); [|apply round_near].
      rewrite U_q. unfold mg. destruct (Z.eqb_spec e 0) as [->|N].
      + replace (q + 149) with 0 by lia. exists m. cbn [Z.pow]. change (2 ^ 0) with 1. lia.
      + exists ((p23 + m) * 2 ^ (e - 1 - (q + 149))).
        replace (e - 1) with ((e - 1 - (q + 149)) + (q + 149)) at 1 by lia.
        rewrite Z.pow_add_r by lia. lia.
    - (* a smaller exponent *)
      assert (Q : -149 < q) by lia.
      pose proof (round_lead Q) as Ld. pose proof (round_near p23) as Nr.
      assert (B : mg p23 e m * 2 ^ 925 <= p23 * U).
      { pose proof (mg_bounds p23 e m ltac:(unfold p23; lia) ltac:(lia) Hm') as [_ B].
        rewrite U_q. assert (2 ^ e <= 2 ^ (q + 149)) by (apply Z.pow_le_mono_r; lia).
        pose proof p925. unfold p23 in *. nia. }
      lia.
  Qed.

  Lemma round_bits : 
    (q + 149) * p23 + n < 255 * p23 ->
    exists e m, 0 <= e < 255 /\ 0 <= m < p23 /\ (q + 149) * p23 + n = e * p23 + m /\
      mg p23 e m * 2 ^ 925 = n * U.
  Proof.
    intros B. destruct round_n as [N1 N2]. rewrite U_q.
    destruct (Z.eq_dec n (2 * p23)) as [->|Ne].
    - exists (q + 151), 0. unfold p23 in *. split; [lia|]. split; [lia|]. split; [lia|].
      unfold mg. destruct (Z.eqb_spec (q + 151) 0); [lia|].
      replace (q + 151 - 1) with (Z.succ (q + 149)) by lia. rewrite Z.pow_succ_r by lia. lia.
    - destruct (Z_lt_le_dec n p23) as [L|L].
      + assert (q = -149) by lia. exists 0, n. unfold p23 in *. split; [lia|]. split; [lia|]. split; [lia|].
        unfold mg. cbn [Z.eqb]. replace (q + 149) with 0 by lia. change (2 ^ 0) with 1. lia.
      + exists (q + 150), (n - p23). unfold p23 in *. split; [lia|]. split; [lia|]. split; [lia|].
        unfold mg. destruct (Z.eqb_spec (q + 150) 0); [lia|].
        replace (q + 150 - 1) with (q + 149) by lia. lia.
  Qed.

  Lemma round_overflow e m : 255 * p23 <= (q + 149) * p23 + n -> 0 <= e < 255 -> 0 <= m < p23 ->
    mg p23 e m * 2 ^ 925 < X.
  Proof.
    intros B He Hm'. destruct round_n as [N1 N2]. pose proof p925 as P9.
    assert (M : mg p23 e m <= (2 * p23 - 1) * 2 ^ 253).
    { destruct (Z.eq_dec e 254) as [->|Ne].
      - unfold mg. cbn [Z.eqb]. change (254 - 1) with 253.
        apply Z.mul_le_mono_nonneg_r; [apply Z.pow_nonneg; lia|lia].
      - pose proof (mg_bounds p23 e m ltac:(unfold p23; lia) ltac:(lia) Hm') as [_ Bd].
        assert (2 ^ e <= 2 ^ 253) by (apply Z.pow_le_mono_r; lia).
        assert (0 < 2 ^ 253) by (apply Z.pow_pos_nonneg; lia). unfold p23 in *. nia. }
    assert (Q : 253 <= q + 149) by (unfold p23 in *; lia).
    destruct (Z_le_gt_dec 254 (q + 149)) as [L|L].
    - pose proof (round_lead ltac:(lia)) as Ld. rewrite U_q in Ld.
      assert (2 ^ 254 <= 2 ^ (q + 149)) by (apply Z.pow_le_mono_r; lia).
      replace (2 ^ 254) with (2 * 2 ^ 253) in * by reflexivity.
      assert (0 < 2 ^ 253) by (apply Z.pow_pos_nonneg; lia).
      unfold p23 in *. nia.
    - assert (q + 149 = 253) by lia. assert (n = 2 * p23) by (unfold p23 in *; lia).
      pose proof round_half as H2. rewrite U_q in H2.
      replace (q + 149) with 253 in * by lia.
      assert (0 < 2 ^ 253) by (apply Z.pow_pos_nonneg; lia).
      assert (0 < 2 ^ 253 * 2 ^ 925) by nia.
      assert (mg p23 e m * 2 ^ 925 <= (2 * p23 - 1) * (2 ^ 253 * 2 ^ 925)) by nia.
      unfold p23 in *. subst n. lia.
  Qed.
End Round.

Lemma narrow_ex f : is_f64 f -> exp64 f <> 2047 ->
  exists mant ex, 0 <= mant < 2 * p52 /\ -1074 <= ex <= 971 /\ (-1074 < ex -> p52 <= mant) /\
    mag64 f = mant * 2 ^ (ex + 1074) /\
    let q := Z.max (ex + 29) (-149) in
    let n := rhe mant (2 ^ (q - ex)) in
    let bits := (q + 149) * p23 + n in
    narrow f = if bits <? 255 * p23 then Some (sign64 f * p31 + bits) else None.
Proof.
  intros H F. pose proof (parts64 f H) as (A & B & C & D).
  exists (if exp64 f =? 0 then man64 f else p52 + man64 f),
         ((if exp64 f =? 0 then 1 else exp64 f) - 1075).
  repeat split.
  - destruct (exp64 f =? 0); lia.
  - destruct (exp64 f =? 0); lia.
  - destruct (Z.eqb_spec (exp64 f) 0); lia.
  - destruct (Z.eqb_spec (exp64 f) 0); lia.
  - destruct (Z.eqb_spec (exp64 f) 0); lia.
  - rewrite mag64_mg. unfold mg. destruct (Z.eqb_spec (exp64 f) 0).
    + change (1 - 1075 + 1074) with 0. change (2 ^ 0) with 1. lia.
    + do 2 f_equal. lia.
  - unfold narrow. change (f / p63) with (sign64 f). change ((f / p52) mod 2048) with (exp64 f).
    change (f mod p52) with (man64 f).
    destruct (Z.eqb_spec (exp64 f) 2047); [contradiction|]. reflexivity.
Qed.

(** [narrow] of an infinity or NaN. *)
Lemma narrow_special f : is_f64 f -> exp64 f = 2047 ->
  exists b, narrow f = Some b /\ is_f32 b /\ sign32 b = sign64 f /\ exp32 b = 255 /\
    (man64 f = 0 -> man32 b = 0) /\
    (man64 f <> 0 -> man32 b <> 0 /\
       (forall m, p23 <= 2 * m < 2 * p23 -> man64 f = m * p29 -> man32 b = m)).
Proof.
  intros H F. pose proof (parts64 f H) as (A & B & C & D).
  unfold narrow. change (f / p63) with (sign64 f). change ((f / p52) mod 2048) with (exp64 f).
  change (f mod p52) with (man64 f). rewrite F. cbn [Z.eqb Pos.eqb].
  destruct (Z.eqb_spec (man64 f) 0) as [M|M].
  - destruct (make32 (sign64 f) 255 0) as (G & G1 & G2 & G3); [lia|lia|unfold p23; lia|].
    rewrite Z.add_0_r in *. exists (sign64 f * p31 + 255 * p23).
    do 5 (split; [auto|]). intros X. contradiction.
  - set (m' := man64 f / p29).
    assert (M' : 0 <= m' < p23).
    { unfold m'. split; [apply Z.div_pos; unfold p29; lia|].
      apply Z.div_lt_upper_bound; [unfold p29; lia|]. unfold p52, p29, p23 in *; lia. }
    set (m2 := if m' <? 4194304 then m' + 4194304 else m').
    assert (M2 : 4194304 <= m2 < p23).
    { unfold m2. destruct (Z.ltb_spec m' 4194304); unfold p23 in *; lia. }
    destruct (make32 (sign64 f) 255 m2) as (G & G1 & G2 & G3); [lia|lia|lia|].
    exists (sign64 f * p31 + 255 * p23 + m2). do 4 (split; [auto|]).
    split; [intros X; contradiction|]. intros _. split; [lia|]. intros m Hm Em. rewrite G3. unfold m2, m'. rewrite Em, Z.div_mul by (unfold p29; lia).
    destruct (Z.ltb_spec m 4194304); [|reflexivity]. unfold p23 in *. lia.
Qed.

Lemma narrow_some f b : is_f64 f -> narrow f = Some b -> rounding_of b f.
Proof.
  intros H N. destruct (Z.eq_dec (exp64 f) 2047) as [F|F].
  - destruct (narrow_special f H F) as (b' & N' & B1 & B2 & B3 & B4 & B5).
    rewrite N in N'. injection N' as <-. unfold rounding_of, nan64, nan32, inf64, inf32, fin64, fin32.
    split; [exact B1|]. split; [exact B2|]. split; [|split; [|split]].
    + split; intros [_ M]; split; try assumption; [apply B5, M|intros X; apply M, B4, X].
    + intros [_ M]. split; [exact B3|apply B4, M].
    + congruence.
    + congruence.
  - destruct (narrow_ex f H F) as (mant & ex & Hm & Hex & Hn & Hg & Hw).
    cbv zeta in Hw. rewrite N in Hw. set (q := Z.max (ex + 29) (-149)) in *.
    set (n := rhe mant (2 ^ (q - ex))) in *.
    destruct (Z.ltb_spec ((q + 149) * p23 + n) (255 * p23)) as [Lt|]; [|discriminate].
    injection Hw as ->.
    destruct (round_bits mant ex q n Hm Hex Hn eq_refl eq_refl Lt) as (e & m & He & Hm' & Eb & Em).
    pose proof (parts64 f H) as (A & _).
    destruct (make32 (sign64 f) e m) as (G & G1 & G2 & G3); [lia|lia|lia|].
    replace (sign64 f * p31 + ((q + 149) * p23 + n)) with (sign64 f * p31 + e * p23 + m) by lia.
    unfold rounding_of, nan64, nan32, inf64, inf32, fin64, fin32.
    split; [exact G|]. split; [exact G1|]. split; [|split; [|split]].
    + split; intros [X _]; [contradiction|]. rewrite G2 in X. lia.
    + intros [X _]. contradiction.
    + intros _ _ b' F' Fi. pose proof (parts32 b' F') as (A' & B' & C' & _).
      rewrite !mag32_mg, G2, G3, Em, Hg.
      apply (round_f32 mant ex q n Hm Hex Hn eq_refl eq_refl); lia.
    + intros _ [X _]. rewrite G2 in X. lia.
Qed.

Lemma narrow_none f : is_f64 f -> narrow f = None ->
  fin64 f /\ forall b', is_f32 b' -> fin32 b' -> mag32 b' < mag64 f.
Proof.
  intros H N. destruct (Z.eq_dec (exp64 f) 2047) as [F|F].
  - destruct (narrow_special f H F) as (b' & N' & _). congruence.
  - split; [exact F|]. intros b' F' Fi.
    destruct (narrow_ex f H F) as (mant & ex & Hm & Hex & Hn & Hg & Hw).
    cbv zeta in Hw. rewrite N in Hw. set (q := Z.max (ex + 29) (-149)) in *.
    set (n := rhe mant (2 ^ (q - ex))) in *.
    destruct (Z.ltb_spec ((q + 149) * p23 + n) (255 * p23)) as [Lt|Ge]; [discriminate|].
    pose proof (parts32 b' F') as (A' & B' & C' & _). unfold fin32 in Fi.
    rewrite mag32_mg, Hg.
    apply (round_overflow mant ex q n Hm Hex Hn eq_refl eq_refl); lia.
Qed.

(** What Ruby sends for such a double. *)
Lemma overflow_inf f : is_f64 f -> narrow f = None -> rounding_of (f / p63 * p31 + 255 * p23) f.
Proof.
  intros H N. destruct (narrow_none f H N) as [F O]. change (f / p63) with (sign64 f).
  pose proof (parts64 f H) as (A & _).
  destruct (make32 (sign64 f) 255 0) as (G & G1 & G2 & G3); [lia|lia|unfold p23; lia|].
  rewrite Z.add_0_r in *. unfold rounding_of, nan64, nan32, inf64, inf32, fin64, fin32 in *.
  split; [exact G|]. split; [exact G1|]. split; [|split; [|split]].
  - split; intros [X Y]; [contradiction|]. congruence.
  - intros [X _]. contradiction.
  - intros _ X. congruence.
  - intros _ _ b' F' Fi. apply O; assumption.
Qed.

(** An f32 comes back from the double it was widened to. *)
Lemma narrow_number b f : is_f32 b -> number_of b f -> narrow f = Some b.
Proof.
  intros H (F & S1 & [(A1 & A2 & A3)|[([A1 A2] & [A3 A4])|([A1 A2] & A3 & [A4 A5] & A6)]]).
  - destruct (narrow f) as [c|] eqn:N.
    + pose proof (narrow_some f c F N) as (C1 & C2 & C3 & C4 & C5 & C6).
      assert (FC : fin32 c).
      { intros X. destruct (Z.eq_dec (man32 c) 0) as [Y|Y].
        - pose proof (C6 A2 (conj X Y) b H A1). lia.
        - apply A2, C3. split; assumption. }
      pose proof (C5 A2 FC b H A1) as D. rewrite A3, Z.sub_diag in D.
      f_equal. apply f32_unique; try assumption; [congruence|lia].
    + destruct (narrow_none f F N) as [_ O]. pose proof (O b H A1). lia.
  - destruct (narrow_special f F A3) as (c & N & B1 & B2 & B3 & B4 & B5). rewrite N. f_equal.
    apply parts32 in B1 as (_ & _ & _ & ->). apply parts32 in H as (_ & _ & _ & ->).
    rewrite (B4 A4). congruence.
  - destruct (narrow_special f F A4) as (c & N & B1 & B2 & B3 & B4 & B5). rewrite N. f_equal.
    destruct (B5 A5) as [_ B6]. pose proof (parts32 b H) as (_ & _ & Hm & _).
    unfold quiet32 in A3. rewrite e22 in A3.
    assert (man32 c = man32 b) by (apply B6; [unfold p23 in *; lia|exact A6]).
    apply parts32 in B1 as (_ & _ & _ & ->). apply parts32 in H as (_ & _ & _ & ->). congruence.
Qed.
