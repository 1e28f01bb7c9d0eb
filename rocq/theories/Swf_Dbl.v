(** The rounding of doubles. *)
From Verif Require Import Base Utf8 Wire_Model Wire_Spec Fgn_Spec Swf_Model Swf_Spec.
Local Open Scope Z_scope.

Lemma pow2_pos e : 0 < 2 ^ e \/ 2 ^ e = 0.
Proof. destruct (Z_lt_ge_dec e 0); [right; now apply Z.pow_neg_r|left; apply Z.pow_pos_nonneg; lia]. Qed.
Lemma pow2_gt e : 0 <= e -> 0 < 2 ^ e.
Proof. intros. apply Z.pow_pos_nonneg; lia. Qed.

(** * Nearest integer *)

Lemma nearest_half n k : 0 < k -> 2 * Z.abs (nearest n k * k - n) <= k.
Proof.
  intros K. unfold nearest. pose proof (Z.div_mod n k ltac:(lia)). pose proof (Z.mod_pos_bound n k K).
  set (q := n / k) in *. set (r := n mod k) in *.
  destruct (Z.ltb_spec (2 * r) k); [nia|]. destruct (Z.ltb_spec k (2 * r)); [nia|].
  destruct (Z.even q); nia.
Qed.

Lemma nearest_exact m k : 0 < k -> nearest (m * k) k = m.
Proof.
  intros K. unfold nearest. rewrite Z.div_mul, Z.mod_mul by lia.
  destruct (Z.ltb_spec (2 * 0) k); lia.
Qed.

Lemma nearest_between n k : 0 < k -> n / k <= nearest n k <= n / k + 1.
Proof.
  intros K. unfold nearest. destruct (_ <? _); [lia|]. destruct (_ <? _); [lia|]. destruct (Z.even _); lia.
Qed.

Lemma nearest_ge j n k : 0 < k -> j * k <= n -> j <= nearest n k.
Proof.
  intros K H. pose proof (nearest_between n k K). pose proof (Z.div_le_lower_bound n k j K ltac:(lia)). lia.
Qed.

(** * The unit in the last place *)

Definition ulp (q : Z) : Z := 2 ^ Z.max 0 (Z.log2 q - 52).

Lemma ulp_pos q : 0 < ulp q.
Proof. apply pow2_gt. lia. Qed.

Lemma rnd_ulp n k : rnd n k = Z.sgn n * (nearest (Z.abs n) (k * ulp (Z.abs n / k)) * ulp (Z.abs n / k)).
Proof. reflexivity. Qed.

Lemma log2_bounds q : 0 < q -> 2 ^ Z.log2 q <= q < 2 ^ (Z.log2 q + 1).
Proof. intros H. pose proof (Z.log2_spec q H). rewrite <- Z.add_1_r in H0. exact H0. Qed.

Lemma ulp_small q : 0 <= q -> Z.log2 q <= 52 -> ulp q = 1.
Proof. intros _ H. unfold ulp. replace (Z.max 0 (Z.log2 q - 52)) with 0 by lia. reflexivity. Qed.

Lemma ulp_rel q : 0 <= q -> ulp q = 1 \/ 2 ^ 52 * ulp q <= q.
Proof.
  intros Q. destruct (Z_le_gt_dec (Z.log2 q) 52) as [H|H]; [left; now apply ulp_small|right].
  unfold ulp. replace (Z.max 0 (Z.log2 q - 52)) with (Z.log2 q - 52) by lia.
  rewrite <- Z.pow_add_r by lia. replace (52 + (Z.log2 q - 52)) with (Z.log2 q) by lia.
  apply log2_bounds. destruct (Z.eq_dec q 0) as [->|]; [|lia]. change (Z.log2 0) with 0 in H. lia.
Qed.

Lemma ulp_bits q : 0 <= q -> q < 2 ^ 53 * ulp q.
Proof.
  intros Q. destruct (Z.eq_dec q 0) as [->|]; [pose proof (ulp_pos 0); lia|].
  apply Z.lt_le_trans with (2 ^ (Z.log2 q + 1)); [apply log2_bounds; lia|].
  unfold ulp. rewrite <- Z.pow_add_r by lia. apply Z.pow_le_mono_r; lia.
Qed.

(** * Rounding *)

Lemma sgn_abs_mul n r k : Z.sgn n * r * k - n = Z.sgn n * (r * k - Z.abs n).
Proof. destruct n; cbn [Z.sgn Z.abs]; lia. Qed.

Lemma abs_sgn n y : n <> 0 -> Z.abs (Z.sgn n * y) = Z.abs y.
Proof. destruct n; cbn [Z.sgn]; lia. Qed.

Lemma rnd_0 k : rnd 0 k = 0.
Proof. reflexivity. Qed.

Lemma rnd_opp n k : rnd (- n) k = - rnd n k.
Proof. rewrite !rnd_ulp, Z.abs_opp, Z.sgn_opp. lia. Qed.

Lemma rnd_half n k : 0 < k -> 2 * Z.abs (rnd n k * k - n) <= k * ulp (Z.abs n / k).
Proof.
  intros K. destruct (Z.eq_dec n 0) as [->|N].
  { rewrite rnd_0. pose proof (ulp_pos (Z.abs 0 / k)). nia. }
  rewrite rnd_ulp. set (u := ulp (Z.abs n / k)). assert (0 < u) by apply ulp_pos.
  rewrite sgn_abs_mul, abs_sgn by exact N.
  pose proof (nearest_half (Z.abs n) (k * u) ltac:(nia)).
  replace (nearest (Z.abs n) (k * u) * u * k) with (nearest (Z.abs n) (k * u) * (k * u)) by lia. exact H0.
Qed.

Lemma rnd_err n k : 0 < k -> 2 ^ 53 * Z.abs (rnd n k * k - n) <= Z.abs n + 2 ^ 52 * k.
Proof.
  intros K. pose proof (rnd_half n k K) as H. set (u := ulp (Z.abs n / k)) in *.
  assert (Q : 0 <= Z.abs n / k) by (apply Z.div_pos; lia).
  destruct (ulp_rel (Z.abs n / k) Q) as [U|U]; fold u in U; [rewrite U in *; lia|].
  assert (k * (2 ^ 52 * u) <= Z.abs n).
  { apply Z.le_trans with (k * (Z.abs n / k)); [nia|]. apply Z.mul_div_le. lia. }
  lia.
Qed.

Lemma rnd_err1 n : 2 ^ 53 * Z.abs (rnd n 1 - n) <= Z.abs n.
Proof.
  pose proof (rnd_half n 1 ltac:(lia)) as H. rewrite Z.div_1_r, !Z.mul_1_r, Z.mul_1_l in H.
  destruct (ulp_rel (Z.abs n) ltac:(lia)) as [U|U]; [rewrite U in *; lia|lia].
Qed.

Lemma rnd_double n k : 0 < k -> double (rnd n k).
Proof.
  intros K. rewrite rnd_ulp. set (q := Z.abs n / k). assert (Q : 0 <= q) by (apply Z.div_pos; lia).
  exists (Z.sgn n * nearest (Z.abs n) (k * ulp q)), (Z.max 0 (Z.log2 q - 52)).
  split; [lia|]. split; [|fold (ulp q); lia].
  assert (U := ulp_pos q). pose proof (nearest_between (Z.abs n) (k * ulp q) ltac:(nia)) as B.
  assert (D0 : 0 <= Z.abs n / (k * ulp q)) by (apply Z.div_pos; nia).
  assert (D1 : Z.abs n / (k * ulp q) < 2 ^ 53).
  { rewrite <- Z.div_div by lia. fold q. apply Z.div_lt_upper_bound; [lia|]. pose proof (ulp_bits q Q). lia. }
  destruct (Z.eq_dec n 0) as [->|N]; [cbn [Z.sgn]; lia|].
  rewrite abs_sgn by exact N. lia.
Qed.

Lemma divide_pow e f : 0 <= e <= f -> (2 ^ e | 2 ^ f).
Proof.
  intros H. exists (2 ^ (f - e)). rewrite <- Z.pow_add_r by lia. f_equal. lia.
Qed.

(** A double is a multiple of its unit in the last place. *)
Lemma ulp_divides x : double x -> (ulp (Z.abs x) | Z.abs x).
Proof.
  intros (m & e & He & Hm & ->). rewrite Z.abs_mul, (Z.abs_eq (2 ^ e)) by (apply Z.pow_nonneg; lia).
  set (a := Z.abs m) in *. assert (0 <= a) by lia.
  destruct (Z.eq_dec a 0) as [E0|E0]; [rewrite E0; exists 0; lia|].
  unfold ulp. rewrite Z.log2_mul_pow2 by lia.
  destruct (Z.eq_dec a (2 ^ 53)) as [->|N].
  - rewrite Z.log2_pow2 by lia. rewrite <- Z.pow_add_r by lia. apply divide_pow. lia.
  - assert (Z.log2 a < 53) by (apply Z.log2_lt_pow2; lia).
    apply Z.divide_trans with (2 ^ e); [|exists a; lia].
    apply divide_pow. pose proof (Z.log2_nonneg a). lia.
Qed.

Lemma rnd_exact x k : 0 < k -> double x -> rnd (x * k) k = x.
Proof.
  intros K D. rewrite rnd_ulp. rewrite Z.abs_mul, (Z.abs_eq k), Z.div_mul by lia.
  destruct (ulp_divides x D) as [j J]. set (u := ulp (Z.abs x)) in *. assert (0 < u) by apply ulp_pos.
  rewrite J. replace (j * u * k) with (j * (k * u)) by lia. rewrite nearest_exact by nia.
  rewrite <- J. rewrite Z.sgn_mul, (Z.sgn_pos k), Z.mul_1_r by lia. destruct x; reflexivity.
Qed.

Lemma rnd_exact1 x : double x -> rnd x 1 = x.
Proof. intros D. rewrite <- (Z.mul_1_r x) at 1. apply rnd_exact; [lia|exact D]. Qed.

(** Rounding does not go below a double. *)
Lemma rnd_ge x n k : 0 < k -> double x -> 0 <= x -> x * k <= n -> x <= rnd n k.
Proof.
  intros K D X H. rewrite rnd_ulp. assert (N : 0 <= n) by nia. rewrite (Z.abs_eq n) by exact N.
  set (q := n / k). assert (XQ : x <= q) by (apply Z.div_le_lower_bound; lia).
  assert (U := ulp_pos q). set (u := ulp q) in *.
  destruct (Z.eq_dec n 0) as [->|N0]; [cbn [Z.sgn]; nia|]. rewrite (Z.sgn_pos n), Z.mul_1_l by lia.
  destruct (Z.eq_dec x 0) as [->|X0].
  { assert (0 <= nearest n (k * u)) by (apply nearest_ge; nia). nia. }
  assert (DV : (u | 2 ^ Z.log2 q)).
  { apply divide_pow. pose proof (Z.log2_nonneg q). lia. }
  destruct (log2_bounds q ltac:(lia)) as [B1 B2].
  assert (W : forall y, (u | y) -> y <= q -> y * k <= n -> y <= nearest n (k * u) * u).
  { intros y [j ->] _ Y. assert (j <= nearest n (k * u)) by (apply nearest_ge; nia). nia. }
  assert (QK : q * k <= n) by (rewrite Z.mul_comm; apply Z.mul_div_le; lia).
  destruct (Z_le_gt_dec x (2 ^ Z.log2 q)) as [L|G].
  - apply Z.le_trans with (1 := L). apply W; [exact DV|exact B1|nia].
  - apply W; [|exact XQ|exact H].
    assert (E : Z.log2 x = Z.log2 q).
    { apply Z.log2_unique; [apply Z.log2_nonneg|]. rewrite <- Z.add_1_r. lia. }
    destruct (ulp_divides x D) as [j J]. rewrite (Z.abs_eq x) in J by lia.
    exists j. rewrite J at 1. unfold u, ulp. now rewrite E.
Qed.

Lemma rnd_nonneg n k : 0 < k -> 0 <= n -> 0 <= rnd n k.
Proof. intros K N. apply rnd_ge; try lia. exists 0, 0. cbn. lia. Qed.

(** * Some doubles *)

Lemma one_pos : 2 ^ 100 <= one.
Proof. unfold one. apply Z.pow_le_mono_r; lia. Qed.

Lemma double_int z : Z.abs z <= 2 ^ 53 -> double (z * one).
Proof. intros H. exists z, 1074. unfold one. auto with zarith. Qed.

Lemma double_opp x : double x -> double (- x).
Proof. intros (m & e & A & B & ->). exists (- m), e. lia. Qed.

Lemma double_abs x : double x -> double (Z.abs x).
Proof. intros D. destruct (Z.abs_eq_or_opp x) as [-> | ->]; [exact D|now apply double_opp]. Qed.

Lemma one_pow e : 0 <= e <= 1074 -> one = 2 ^ (1074 - e) * 2 ^ e.
Proof. intros H. unfold one. rewrite <- Z.pow_add_r by lia. f_equal. lia. Qed.

(** The whole and the fractional part of a double are doubles. *)
Lemma double_parts x : double x -> 0 <= x -> double (x / one * one) /\ double (x mod one).
Proof.
  intros D X. pose proof D as (m & e & He & Hm & E). pose proof one_pos as OP.
  destruct (Z_le_gt_dec 1074 e) as [L|G].
  - assert (MO : x mod one = 0).
    { rewrite E. unfold one. replace e with (e - 1074 + 1074) by lia. rewrite Z.pow_add_r by lia.
      rewrite Z.mul_assoc. apply Z.mod_mul. lia. }
    split; [|rewrite MO; exists 0, 0; cbn; lia].
    pose proof (Z.div_mod x one ltac:(lia)). replace (x / one * one) with x by lia. exact D.
  - pose proof (pow2_gt e He) as PE. pose proof (pow2_gt (1074 - e) ltac:(lia)) as PF.
    assert (M0 : 0 <= m) by nia.
    rewrite (one_pow e) by lia. rewrite E. rewrite Z.div_mul_cancel_r, Z.mul_mod_distr_r by lia.
    split.
    + exists (m / 2 ^ (1074 - e)), 1074. split; [lia|]. split; [|rewrite <- (one_pow e) by lia; reflexivity].
      rewrite Z.abs_eq by (apply Z.div_pos; lia). apply Z.le_trans with m; [|lia].
      apply Z.div_le_upper_bound; nia.
    + exists (m mod 2 ^ (1074 - e)), e. split; [lia|]. split; [|reflexivity].
      pose proof (Z.mod_pos_bound m _ PF). pose proof (Z.mod_le m (2 ^ (1074 - e)) M0 PF). lia.
Qed.

(** A double below 1 is at most 1 - 2^-53. *)
Lemma double_frac f : double f -> 0 <= f < one -> f <= one - 2 ^ 1021.
Proof.
  intros (m & e & He & Hm & ->) F. destruct (Z_le_gt_dec 1021 e) as [L|G].
  - assert (P : 0 < 2 ^ 1021) by (apply pow2_gt; lia).
    replace e with (e - 1021 + 1021) in * by lia. rewrite Z.pow_add_r, Z.mul_assoc in * by lia.
    set (j := m * 2 ^ (e - 1021)) in *. rewrite (one_pow 1021) in * by lia. change (1074 - 1021) with 53 in *. nia.
  - assert (m * 2 ^ e <= 2 ^ 53 * 2 ^ 1020).
    { pose proof (pow2_gt e He). apply Z.mul_le_mono_nonneg; [nia|lia|lia|apply Z.pow_le_mono_r; lia]. }
    apply Z.le_trans with (1 := H). rewrite (one_pow 1021) by lia. change (1074 - 1021) with 53.
    replace (2 ^ 1021) with (2 * 2 ^ 1020) by (rewrite <- Z.pow_succ_r by lia; reflexivity).
    pose proof (pow2_gt 1020 ltac:(lia)). lia.
Qed.
