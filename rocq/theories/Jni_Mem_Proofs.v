(** Memory of the JNI bindings: writing to a buffer and reading it back, and what code that uses memory
    owes its caller. *)
From Verif Require Import Base Meta_Types Sort_Model Jni_Model Jni_Spec Jni_Layout_Proofs.
Local Open Scope list_scope.
Local Open Scope Z_scope.

(** ** Outcomes *)

(** The computation ends as [P] says, or memory runs out. *)
Definition wp {A} (r : out A) (P : A -> Prop) : Prop :=
  match r with Ret x => P x | Bad e => e = NoMemory end.

Lemma wp_bind {A B} (r : out A) (f : A -> out B) P :
  wp r (fun x => wp (f x) P) -> wp (obind r f) P.
Proof. destruct r; cbn [wp obind]; auto. Qed.

Lemma wp_mono {A} (r : out A) (P Q : A -> Prop) : wp r P -> (forall x, P x -> Q x) -> wp r Q.
Proof. destruct r; cbn [wp]; auto. Qed.

Lemma wp_mono_eq {A} (r : out A) (P Q : A -> Prop) :
  wp r P -> (forall x, r = Ret x -> P x -> Q x) -> wp r Q.
Proof. destruct r; cbn [wp]; auto. Qed.

(** ** Heaps *)

(** Blocks were added, and none of the others was touched. *)
Definition grown (h h1 : heap) : Prop :=
  next h <= next h1 /\ heap_ok h1 /\ forall x, x < next h -> cells h1 x = cells h x.

(** A later heap has the same blocks here. *)
Definition agree (lo hi : Z) (h1 h2 : heap) : Prop :=
  forall x, lo <= x < hi -> cells h2 x = cells h1 x.

(** The blocks here were freed, and no other was touched. *)
Definition freed (lo hi : Z) (h h1 : heap) : Prop :=
  next h <= next h1 /\ heap_ok h1 /\
  forall x, (lo <= x < hi -> cells h1 x = None) /\ (~ (lo <= x < hi) -> cells h1 x = cells h x).

Lemma grown_refl h : heap_ok h -> grown h h.
Proof. intros O. split; [lia|]. split; [exact O|]. auto. Qed.

Lemma grown_trans h h1 h2 : grown h h1 -> grown h1 h2 -> grown h h2.
Proof.
  intros (A & B & C) (A' & B' & C'). split; [lia|]. split; [exact B'|].
  intros x X. rewrite C' by lia. auto.
Qed.

Lemma freed_refl lo h : heap_ok h -> freed lo lo h h.
Proof. intros O. split; [lia|]. split; [exact O|]. intros x. split; [lia|auto]. Qed.

Lemma freed_trans lo mid hi h h1 h2 : lo <= mid -> mid <= hi ->
  freed lo mid h h1 -> freed mid hi h1 h2 -> freed lo hi h h2.
Proof.
  intros L1 L2 (A & B & C) (A' & B' & C'). split; [lia|]. split; [exact B'|]. intros x.
  destruct (C x) as [C1 C2], (C' x) as [D1 D2]. split; intros R.
  - destruct (Z_lt_le_dec x mid); [rewrite D2 by lia; apply C1; lia|apply D1; lia].
  - rewrite D2 by lia. apply C2. lia.
Qed.

Lemma freed_trans' lo mid hi h h1 h2 : lo <= mid -> mid <= hi ->
  freed mid hi h h1 -> freed lo mid h1 h2 -> freed lo hi h h2.
Proof.
  intros L1 L2 (A & B & C) (A' & B' & C'). split; [lia|]. split; [exact B'|]. intros x.
  destruct (C x) as [C1 C2], (C' x) as [D1 D2]. split; intros R.
  - destruct (Z_lt_le_dec x mid); [apply D1; lia|rewrite D2 by lia; apply C1; lia].
  - rewrite D2 by lia. apply C2. lia.
Qed.

Lemma agree_freed lo mid hi h1 h2 h3 : agree lo hi h1 h2 -> lo <= mid -> mid <= hi ->
  freed lo mid h2 h3 -> agree mid hi h1 h3.
Proof.
  intros A L1 L2 (_ & _ & C) x X. destruct (C x) as [_ C2]. rewrite C2 by lia. apply A. lia.
Qed.

Lemma agree_refl lo hi h : agree lo hi h h.
Proof. intros x _. reflexivity. Qed.

(** The blocks up to [next h1] that [h2] still has, when [h2] grew from [h1]. *)
Lemma agree_grown lo hi h1 h2 h3 : grown h1 h2 -> hi <= next h1 -> agree lo hi h2 h3 -> agree lo hi h1 h3.
Proof. intros (_ & _ & C) L A x X. rewrite A by lia. apply C. lia. Qed.

Lemma agree_sub lo hi lo' hi' h1 h2 : agree lo hi h1 h2 -> lo <= lo' -> hi' <= hi -> agree lo' hi' h1 h2.
Proof. intros A L1 L2 x X. apply A. lia. Qed.

Lemma heap_pos h a b : heap_ok h -> cells h a = Some b -> a <> 0 /\ a < next h.
Proof.
  intros O E. split.
  - intros ->. rewrite (heap_null h O) in E. discriminate.
  - destruct (Z_lt_le_dec a (next h)); [assumption|]. rewrite (heap_fresh h O) in E by lia. discriminate.
Qed.

Lemma alloc_block_spec b h : heap_ok h ->
  wp (alloc_block b h) (fun x => grown h (snd x) /\ fst x = next h /\ next (snd x) = next h + 8 /\
    next h + 8 <= max_address /\
    cells (snd x) (next h) = Some b /\ forall y, y <> next h -> cells (snd x) y = cells h y).
Proof.
  intros O. unfold alloc_block. destruct (Z.leb_spec (next h + 8) max_address); cbn [wp]; [|reflexivity].
  cbn [fst snd cells next]. split.
  - split; [cbn; lia|]. split.
    + destruct O as [N P F]. constructor; cbn [cells next]; unfold upd.
      * destruct (Z.eqb_spec 0 (next h)); [lia|exact N].
      * lia.
      * intros a A. destruct (Z.eqb_spec a (next h)); [lia|]. apply F. lia.
    + intros x X. cbn [cells]. unfold upd. destruct (Z.eqb_spec x (next h)); [lia|reflexivity].
  - split; [reflexivity|]. split; [reflexivity|]. split; [assumption|]. split.
    + cbn [cells]. unfold upd. now rewrite Z.eqb_refl.
    + intros y Y. cbn [cells]. unfold upd. destruct (Z.eqb_spec y (next h)); [lia|reflexivity].
Qed.

Lemma free_ok h a : heap_ok h -> heap_ok (Heap (upd (cells h) a None) (next h)).
Proof.
  intros [N P F]. constructor; cbn [cells next]; unfold upd.
  - destruct (0 =? a); auto.
  - exact P.
  - intros x X. destruct (x =? a); auto.
Qed.

(** ** Bytes *)

(** [h1] is [h] with bytes from [lo] to [hi] of the block at [a] changed, and blocks added. *)
Definition wrote (a len lo hi : Z) (h h1 : heap) : Prop :=
  next h <= next h1 /\ heap_ok h1 /\ (forall x, x < next h -> x <> a -> cells h1 x = cells h x) /\
  exists f f1, cells h a = Some (Bytes len f) /\ cells h1 a = Some (Bytes len f1) /\
    forall i, ~ (lo <= i < hi) -> f1 i = f i.

(** A later heap has the same bytes here. *)
Definition same_bytes (a lo hi : Z) (h1 h2 : heap) : Prop :=
  exists len f1 f2, cells h1 a = Some (Bytes len f1) /\ cells h2 a = Some (Bytes len f2) /\
    forall i, lo <= i < hi -> f2 i = f1 i.

(** From any later heap in which these bytes and the blocks added are unchanged, [R] returns [v] and
    frees the blocks. *)
Definition reads_back {A} (a lo hi : Z) (h h1 : heap) (R : heap -> out (A * heap)) (v : A) : Prop :=
  forall h2, heap_ok h2 -> next h1 <= next h2 -> same_bytes a lo hi h1 h2 ->
    agree (next h) (next h1) h1 h2 ->
    wp (R h2) (fun y => fst y = v /\ freed (next h) (next h1) h2 (snd y)).

Lemma wrote_mono a len lo hi lo' hi' h h1 : lo' <= lo -> hi <= hi' ->
  wrote a len lo hi h h1 -> wrote a len lo' hi' h h1.
Proof.
  intros L1 L2 (A & B & C & f & f1 & D & E & F). split; [exact A|]. split; [exact B|].
  split; [exact C|]. exists f, f1. repeat (split; [assumption|]). intros i I. apply F. lia.
Qed.

Lemma wrote_trans a len lo hi h h1 h2 :
  wrote a len lo hi h h1 -> wrote a len lo hi h1 h2 -> wrote a len lo hi h h2.
Proof.
  intros (A & B & C & f & f1 & D & E & F) (A' & B' & C' & g & g1 & D' & E' & F').
  split; [lia|]. split; [exact B'|]. split.
  - intros x X N. rewrite C' by lia. auto.
  - assert (g = f1) as -> by congruence. exists f, g1. split; [exact D|]. split; [exact E'|].
    intros i I. rewrite F' by assumption. auto.
Qed.

Lemma wrote_grown a len lo hi h h1 h2 : a < next h ->
  grown h h1 -> wrote a len lo hi h1 h2 -> wrote a len lo hi h h2.
Proof.
  intros N (A & B & C) (A' & B' & C' & g & g1 & D' & E' & F').
  split; [lia|]. split; [exact B'|]. split.
  - intros x X Y. rewrite C' by lia. auto.
  - exists g, g1. split; [rewrite <- C by lia; exact D'|]. split; assumption.
Qed.

Lemma wrote_refl a len lo hi h f : heap_ok h -> cells h a = Some (Bytes len f) -> wrote a len lo hi h h.
Proof.
  intros O E. split; [lia|]. split; [exact O|]. split; [auto|]. exists f, f. auto.
Qed.

Lemma wrote_bytes a len lo hi h h1 : wrote a len lo hi h h1 ->
  exists f, cells h1 a = Some (Bytes len f).
Proof. intros (_ & _ & _ & f & f1 & _ & E & _). eauto. Qed.

Lemma same_bytes_sub a lo hi lo' hi' h1 h2 : lo <= lo' -> hi' <= hi ->
  same_bytes a lo hi h1 h2 -> same_bytes a lo' hi' h1 h2.
Proof.
  intros L1 L2 (len & f1 & f2 & A & B & C). exists len, f1, f2. repeat (split; [assumption|]).
  intros i I. apply C. lia.
Qed.

(** Bytes written earlier that a later write does not touch. *)
Lemma same_bytes_wrote a len lo hi lo' hi' h1 h2 h3 : wrote a len lo' hi' h1 h2 ->
  hi <= lo' \/ hi' <= lo -> same_bytes a lo hi h2 h3 -> same_bytes a lo hi h1 h3.
Proof.
  intros (_ & _ & _ & f & f1 & D & E & F) L (len' & g1 & g2 & A & B & C).
  assert (len' = len) as -> by congruence. assert (g1 = f1) as -> by congruence.
  exists len, f, g2. split; [exact D|]. split; [exact B|]. intros i I. rewrite C by assumption.
  apply F. lia.
Qed.

Lemma same_bytes_freed a lo hi p q h1 h2 h3 : same_bytes a lo hi h1 h2 -> freed p q h2 h3 ->
  a < p \/ q <= a -> same_bytes a lo hi h1 h3.
Proof.
  intros (len & f1 & f2 & A & B & C) (_ & _ & F) L. exists len, f1, f2. split; [exact A|].
  split; [|exact C]. destruct (F a) as [_ F2]. rewrite F2 by lia. exact B.
Qed.

Lemma pow256_pos n : 0 <= n -> 0 < 256 ^ n.
Proof. intros. apply Z.pow_pos_nonneg; lia. Qed.

Lemma byte_of_0 z : byte_of z 0 = z mod 256.
Proof. unfold byte_of. now rewrite Z.pow_0_r, Z.div_1_r. Qed.

Lemma byte_of_succ z j : 0 <= j -> byte_of z (1 + j) = byte_of (z / 256) j.
Proof.
  intros J. unfold byte_of. rewrite Z.pow_add_r, Z.pow_1_r by lia.
  rewrite Z.div_div; [reflexivity|lia|]. now apply pow256_pos.
Qed.

Lemma gather_spec f : forall n z off,
  (forall j, 0 <= j < Z.of_nat n -> f (off + j) = Some (byte_of z j)) ->
  gather f off n = Some (z mod 256 ^ Z.of_nat n).
Proof.
  induction n as [|n IH]; intros z off H.
  - cbn. now rewrite Z.mod_1_r.
  - cbn [gather]. pose proof (H 0 ltac:(lia)) as H0. rewrite Z.add_0_r in H0. rewrite H0, byte_of_0.
    rewrite (IH (z / 256) (off + 1)).
    + f_equal. rewrite Nat2Z.inj_succ, Z.pow_succ_r by lia.
      pose proof (pow256_pos (Z.of_nat n) ltac:(lia)).
      rewrite Z.rem_mul_r by lia. reflexivity.
    + intros j J. replace (off + 1 + j) with (off + (1 + j)) by lia. rewrite H by lia.
      now rewrite byte_of_succ by lia.
Qed.

Lemma access_ok s n len off : 0 < n -> 0 <= off -> off + n <= len -> (n | off) ->
  access s n len off = Ret tt.
Proof.
  intros N O L D. unfold access.
  replace ((0 <=? off) && (off + n <=? len)) with true by
    (symmetry; apply andb_true_intro; split; apply Z.leb_le; lia).
  destruct s; [|reflexivity]. apply Z.mod_divide in D; [|lia]. now rewrite D.
Qed.

(** Storing [n] bytes: every later load of them returns the number. *)
Lemma store_spec s n a off z h len f : 0 < n -> heap_ok h -> cells h a = Some (Bytes len f) ->
  0 <= off -> off + n <= len -> (n | off) ->
  exists h1, store s n a off z h = Ret h1 /\ next h1 = next h /\ wrote a len off (off + n) h h1 /\
    forall s' h2, same_bytes a off (off + n) h1 h2 -> load s' n a off h2 = Ret (unsigned n z).
Proof.
  intros N O E P L D. unfold store. rewrite E, (access_ok s n len off N P L D). cbn [obind].
  destruct (heap_pos _ _ _ O E) as [A0 A1].
  eexists. split; [reflexivity|]. split; [reflexivity|]. split.
  - split; [cbn; lia|]. split.
    + destruct O as [N0 P0 F0]. constructor; cbn [cells next]; unfold upd.
      * destruct (Z.eqb_spec 0 a); [lia|exact N0].
      * exact P0.
      * intros x X. destruct (Z.eqb_spec x a); [lia|]. apply F0. exact X.
    + split.
      * intros x X Y. cbn [cells]. unfold upd. destruct (Z.eqb_spec x a); [lia|reflexivity].
      * exists f. eexists. split; [exact E|]. split.
        { cbn [cells]. unfold upd. rewrite Z.eqb_refl. reflexivity. }
        intros i I. cbv beta. destruct (Z.leb_spec off i), (Z.ltb_spec i (off + n)); cbn [andb]; try reflexivity; lia.
  - intros s' h2 (len' & f1 & f2 & B & C & F). cbn [cells] in B. unfold upd in B.
    rewrite Z.eqb_refl in B. injection B as <- <-. unfold load. rewrite C, access_ok by assumption.
    cbn [obind]. rewrite (gather_spec _ _ z).
    + cbn [of_opt]. unfold unsigned. now rewrite Z2Nat.id by lia.
    + intros j J. rewrite Z2Nat.id in J by lia. rewrite F by lia.
      replace (off <=? off + j) with true by (symmetry; apply Z.leb_le; lia).
      replace (off + j <? off + n) with true by (symmetry; apply Z.ltb_lt; lia).
      cbn [andb]. do 2 f_equal. lia.
Qed.

(** ** Numbers *)

Lemma half256 n : 0 < n -> 256 ^ n / 2 * 2 = 256 ^ n.
Proof.
  intros N. assert (256 ^ n = (128 * 256 ^ (n - 1)) * 2) as ->.
  { replace n with (1 + (n - 1)) at 1 by lia. rewrite Z.pow_add_r by lia. rewrite Z.pow_1_r. lia. }
  rewrite Z.div_mul by lia. reflexivity.
Qed.

Lemma unsigned_id n z : 0 <= z < 256 ^ n -> unsigned n z = z.
Proof. apply Z.mod_small. Qed.

Lemma unsigned_signed n z : 0 < n -> unsigned n (signed n z) = unsigned n z.
Proof.
  intros N. pose proof (pow256_pos n ltac:(lia)). unfold signed.
  destruct (unsigned n z <? 256 ^ n / 2).
  - unfold unsigned. now rewrite Z.mod_mod by lia.
  - unfold unsigned. rewrite <- (Z_mod_plus_full _ 1 (256 ^ n)).
    replace (z mod 256 ^ n - 256 ^ n + 1 * 256 ^ n) with (z mod 256 ^ n) by lia.
    now rewrite Z.mod_mod by lia.
Qed.

Lemma signed_id n z : 0 < n -> - (256 ^ n / 2) <= z < 256 ^ n / 2 -> signed n z = z.
Proof.
  intros N Hz. pose proof (pow256_pos n ltac:(lia)). pose proof (half256 n N). unfold signed, unsigned.
  destruct (Z_lt_le_dec z 0).
  - assert (z mod 256 ^ n = z + 256 ^ n) as ->.
    { symmetry. apply Z.mod_unique with (q := -1); lia. }
    destruct (Z.ltb_spec (z + 256 ^ n) (256 ^ n / 2)); lia.
  - rewrite Z.mod_small by lia. destruct (Z.ltb_spec z (256 ^ n / 2)); lia.
Qed.

Lemma signed_unsigned n z : 0 < n -> signed n (unsigned n z) = signed n z.
Proof.
  intros N. pose proof (pow256_pos n ltac:(lia)). unfold signed, unsigned. now rewrite Z.mod_mod by lia.
Qed.

Lemma as_int_unsigned n sg z : 0 < n -> as_int n sg (unsigned n z) = as_int n sg z.
Proof.
  intros N. unfold as_int. destruct sg; [now apply signed_unsigned|].
  pose proof (pow256_pos n ltac:(lia)). unfold unsigned. now rewrite Z.mod_mod by lia.
Qed.

Lemma as_int_signed n sg z : 0 < n -> as_int n sg (signed n z) = as_int n sg z.
Proof.
  intros N. rewrite <- as_int_unsigned, unsigned_signed, as_int_unsigned by assumption. reflexivity.
Qed.

Lemma int_of_fits t ft n sg z : int_of t = Some (ft, n, sg) -> int_fits t z ->
  0 < n /\ as_int n sg z = z /\ - 2 ^ 63 <= z < 2 ^ 64 /\ n <= 8 /\ (n < 8 -> - 2 ^ 31 <= z < 2 ^ 32).
Proof.
  intros H F. destruct t; cbn [int_of] in H; try discriminate; injection H as <- <- <-;
    cbn [int_fits as_int] in *;
    (split; [lia|]; split; [first [apply unsigned_id | apply signed_id; [lia|]]; exact F|]; lia).
Qed.

Lemma int_of_layout m t ft n sg : int_of t = Some (ft, n, sg) -> get m t = Ret (Layout n n) /\
  standard t = Some [ft].
Proof.
  intros H. destruct t; cbn [int_of] in H; try discriminate; injection H as <- <- <-;
    cbn [get standard]; auto.
Qed.
