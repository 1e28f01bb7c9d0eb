(** Shared base: results with explicit panics, bytes, fixed-width integers.
    Nothing here is specific to one file of /repo; these are the semantics of
    the Rust primitives the modelled code is written with. *)
From Coq Require Export List ZArith NArith Lia Bool Arith String.
From Coq Require Export Init.Byte.
From Coq Require Import Strings.Byte.
Require Export Coq.micromega.ZifyBool Coq.micromega.ZifyNat Coq.micromega.ZifyN.
Export ListNotations.
Global Open Scope list_scope.
(* [length] is always the length of a list in this development. *)
Notation length := List.length.
Notation concat := List.concat.

(** Outcome of a Rust computation.  [Err] is a returned [Err(_)]; [Panic] is an
    unwinding panic; [Deep] is exhaustion of the stack (recursion deeper than
    the depth the computation was given). *)
Inductive res (A : Type) : Type :=
| Ok (a : A)
| Err
| Panic
| Deep.
Arguments Ok {A} a.
Arguments Err {A}.
Arguments Panic {A}.
Arguments Deep {A}.

(** The [?] operator and panic propagation. *)
Definition bind {A B} (x : res A) (f : A -> res B) : res B :=
  match x with
  | Ok a => f a
  | Err => Err
  | Panic => Panic
  | Deep => Deep
  end.
Declare Scope res_scope.
Notation "'let*' x ':=' e 'in' k" := (bind e (fun x => k))
  (at level 200, x name, e at level 100, k at level 200, right associativity) : res_scope.
Notation "'let*' ' p ':=' e 'in' k" := (bind e (fun p => k))
  (at level 200, p strict pattern, e at level 100, k at level 200, right associativity) : res_scope.
Global Open Scope res_scope.

Lemma bind_ok {A B} (x : res A) (f : A -> res B) b :
  bind x f = Ok b <-> exists a, x = Ok a /\ f a = Ok b.
Proof.
  split.
  - destruct x; simpl; intros H; try discriminate. eauto.
  - intros (a & -> & H). exact H.
Qed.

Lemma bind_panic {A B} (x : res A) (f : A -> res B) :
  bind x f = Panic -> x = Panic \/ exists a, x = Ok a /\ f a = Panic.
Proof. destruct x; simpl; intros H; try discriminate; eauto. Qed.

(** * Bytes *)

Definition b2n (b : byte) : N := Byte.to_N b.

(** The low eight bits of [n] as a byte: Rust's [n as u8]. *)
Definition n2b (n : N) : byte :=
  match Byte.of_N (n mod 256) with Some b => b | None => x00 end.

Lemma b2n_lt b : (b2n b < 256)%N.
Proof. unfold b2n. pose proof (Byte.to_N_bounded b). lia. Qed.

Lemma b2n_n2b n : b2n (n2b n) = (n mod 256)%N.
Proof.
  unfold b2n, n2b.
  destruct (Byte.of_N (n mod 256)) as [b|] eqn:E.
  - apply Byte.to_of_N. exact E.
  - apply Byte.of_N_None_iff in E.
    assert (n mod 256 < 256)%N by (apply N.mod_lt; lia). lia.
Qed.

Lemma n2b_b2n b : n2b (b2n b) = b.
Proof.
  unfold n2b, b2n.
  rewrite N.mod_small by (pose proof (Byte.to_N_bounded b); lia).
  rewrite Byte.of_to_N. reflexivity.
Qed.

Lemma b2n_inj a b : b2n a = b2n b -> a = b.
Proof. intros H. rewrite <- (n2b_b2n a), <- (n2b_b2n b), H. reflexivity. Qed.

Definition byte_eqb (a b : byte) : bool := N.eqb (b2n a) (b2n b).

Lemma byte_eqb_spec a b : reflect (a = b) (byte_eqb a b).
Proof.
  unfold byte_eqb. destruct (N.eqb_spec (b2n a) (b2n b)); constructor.
  - now apply b2n_inj.
  - congruence.
Qed.

Notation bytes := (list byte).

Fixpoint bytes_eqb (a b : bytes) : bool :=
  match a, b with
  | [], [] => true
  | x :: a', y :: b' => byte_eqb x y && bytes_eqb a' b'
  | _, _ => false
  end.

Lemma bytes_eqb_spec a b : reflect (a = b) (bytes_eqb a b).
Proof.
  revert b; induction a as [|x a IH]; intros [|y b]; simpl;
    try (constructor; congruence).
  destruct (byte_eqb_spec x y); simpl; [|constructor; congruence].
  destruct (IH b); constructor; congruence.
Qed.

Local Open Scope N_scope.

(** * Fixed-width unsigned integers, little and big endian *)

Fixpoint le_bytes (k : nat) (n : N) : bytes :=
  match k with
  | O => []
  | S k' => n2b n :: le_bytes k' (n / 256)
  end.

Fixpoint le_val (bs : bytes) : N :=
  match bs with
  | [] => 0
  | b :: r => b2n b + 256 * le_val r
  end.

Definition be_bytes (k : nat) (n : N) : bytes := rev (le_bytes k n).
Definition be_val (bs : bytes) : N := le_val (rev bs).

Lemma le_bytes_length k n : length (le_bytes k n) = k.
Proof. revert n; induction k; simpl; intros; auto. Qed.

Lemma be_bytes_length k n : length (be_bytes k n) = k.
Proof. unfold be_bytes. now rewrite rev_length, le_bytes_length. Qed.

Definition pow256 (k : nat) : N := (256 ^ N.of_nat k)%N.

Lemma pow256_S k : pow256 (S k) = (256 * pow256 k)%N.
Proof. unfold pow256. rewrite Nat2N.inj_succ, N.pow_succ_r'. reflexivity. Qed.

Lemma pow256_pos k : (0 < pow256 k)%N.
Proof. unfold pow256. assert (256 ^ N.of_nat k <> 0)%N by (apply N.pow_nonzero; lia). lia. Qed.

Lemma le_val_bytes k n : le_val (le_bytes k n) = (n mod pow256 k)%N.
Proof.
  revert n; induction k; intros n.
  - simpl. unfold pow256; simpl. now rewrite N.mod_1_r.
  - cbn [le_bytes le_val]. rewrite IHk, b2n_n2b, pow256_S.
    pose proof (pow256_pos k).
    rewrite N.mod_mul_r by lia. reflexivity.
Qed.

Lemma le_val_lt bs : (le_val bs < pow256 (length bs))%N.
Proof.
  induction bs as [|b bs IH].
  - cbn. unfold pow256; simpl. lia.
  - cbn [le_val List.length]. rewrite pow256_S.
    pose proof (b2n_lt b). lia.
Qed.

Lemma le_bytes_val bs : le_bytes (length bs) (le_val bs) = bs.
Proof.
  induction bs as [|b bs IH]; [reflexivity|].
  cbn [le_val le_bytes List.length].
  pose proof (b2n_lt b).
  f_equal.
  - rewrite <- (n2b_b2n b) at 2. unfold n2b at 1. unfold n2b.
    replace ((b2n b + 256 * le_val bs) mod 256)%N with (b2n b mod 256)%N; [reflexivity|].
    rewrite (N.mul_comm 256). now rewrite N.mod_add by lia.
  - replace ((b2n b + 256 * le_val bs) / 256)%N with (le_val bs); [exact IH|].
    rewrite (N.mul_comm 256), N.div_add by lia.
    rewrite N.div_small by lia. lia.
Qed.

Lemma be_val_bytes k n : be_val (be_bytes k n) = (n mod pow256 k)%N.
Proof. unfold be_val, be_bytes. now rewrite rev_involutive, le_val_bytes. Qed.

Lemma be_val_lt bs : (be_val bs < pow256 (length bs))%N.
Proof. unfold be_val. pose proof (le_val_lt (rev bs)). now rewrite rev_length in H. Qed.

Lemma be_bytes_val bs : be_bytes (length bs) (be_val bs) = bs.
Proof.
  unfold be_val, be_bytes.
  rewrite <- (rev_length bs), le_bytes_val. apply rev_involutive.
Qed.

Local Close Scope N_scope.
Local Open Scope Z_scope.

(** * Two's complement *)

(** 2^(8k), as a [Z]. *)
Definition modulus (k : nat) : Z := Z.of_N (pow256 k).
Definition half (k : nat) : Z := modulus k / 2.

(** Big-endian encoding of any integer in [k] bytes; wraps modulo 2^(8k). *)
Definition enc (k : nat) (z : Z) : bytes := be_bytes k (Z.to_N (z mod modulus k)).
Definition dec_u (bs : bytes) : Z := Z.of_N (be_val bs).
Definition dec_s (bs : bytes) : Z :=
  let u := dec_u bs in
  if u <? half (length bs) then u else u - modulus (length bs).

Lemma modulus_pos k : 0 < modulus k.
Proof. unfold modulus. pose proof (pow256_pos k). lia. Qed.

Lemma modulus_S k : modulus (S k) = 256 * modulus k.
Proof. unfold modulus. rewrite pow256_S. lia. Qed.

Lemma half_double k : (0 < k)%nat -> modulus k = 2 * half k.
Proof.
  destruct k; [lia|]. intros _. unfold half. rewrite modulus_S.
  replace (256 * modulus k) with ((128 * modulus k) * 2) by lia.
  rewrite Z.div_mul by lia. lia.
Qed.

Lemma enc_length k z : length (enc k z) = k.
Proof. apply be_bytes_length. Qed.

Lemma dec_u_enc k z : 0 <= z < modulus k -> dec_u (enc k z) = z.
Proof.
  intros H. unfold dec_u, enc.
  rewrite (Z.mod_small z) by lia.
  rewrite be_val_bytes.
  unfold modulus in H. rewrite N.mod_small by lia. lia.
Qed.

Lemma dec_u_range bs : 0 <= dec_u bs < modulus (length bs).
Proof. unfold dec_u, modulus. pose proof (be_val_lt bs). lia. Qed.

Lemma dec_u_enc_mod k z : dec_u (enc k z) = z mod modulus k.
Proof.
  pose proof (modulus_pos k).
  pose proof (Z.mod_pos_bound z (modulus k) H).
  rewrite <- (dec_u_enc k (z mod modulus k)) by lia.
  unfold enc. now rewrite Z.mod_mod by lia.
Qed.

Lemma enc_dec_u bs : enc (length bs) (dec_u bs) = bs.
Proof.
  unfold enc. pose proof (dec_u_range bs).
  rewrite Z.mod_small by lia. unfold dec_u. rewrite N2Z.id. apply be_bytes_val.
Qed.

Lemma dec_s_enc k z :
  (0 < k)%nat -> - half k <= z < half k -> dec_s (enc k z) = z.
Proof.
  intros Hk H. unfold dec_s. rewrite enc_length, dec_u_enc_mod.
  pose proof (half_double _ Hk). pose proof (modulus_pos k).
  destruct (Z_lt_le_dec z 0).
  - assert (z mod modulus k = z + modulus k) as ->.
    { rewrite <- (Z.mod_add z 1) by lia. rewrite Z.mod_small by lia. lia. }
    destruct (Z.ltb_spec (z + modulus k) (half k)); lia.
  - rewrite Z.mod_small by lia.
    destruct (Z.ltb_spec z (half k)); lia.
Qed.

Lemma dec_s_range bs : (0 < length bs)%nat ->
  - half (length bs) <= dec_s bs < half (length bs).
Proof.
  intros Hk. unfold dec_s. pose proof (dec_u_range bs).
  pose proof (half_double _ Hk).
  destruct (Z.ltb_spec (dec_u bs) (half (length bs))); lia.
Qed.

Lemma enc_dec_s bs : enc (length bs) (dec_s bs) = bs.
Proof.
  unfold enc. pose proof (dec_u_range bs).
  assert (dec_s bs mod modulus (length bs) = dec_u bs) as ->.
  { unfold dec_s. destruct (dec_u bs <? half (length bs)).
    - apply Z.mod_small; lia.
    - rewrite <- (Z.mod_add _ 1) by lia.
      rewrite Z.mod_small by lia. lia. }
  unfold dec_u. rewrite N2Z.id. apply be_bytes_val.
Qed.

(** * Reading from a slice *)

(** Split off exactly [k] bytes, [None] when fewer remain. *)
Definition split_n (k : nat) (bs : bytes) : option (bytes * bytes) :=
  if (k <=? length bs)%nat then Some (firstn k bs, skipn k bs) else None.

Lemma split_n_app k a b : length a = k -> split_n k (a ++ b) = Some (a, b).
Proof.
  intros <-. unfold split_n. rewrite app_length.
  destruct (Nat.leb_spec (length a) (length a + length b)); [|lia].
  rewrite firstn_app, Nat.sub_diag, firstn_all, skipn_app, Nat.sub_diag, skipn_all.
  simpl. now rewrite app_nil_r.
Qed.

Lemma split_n_some k bs a b :
  split_n k bs = Some (a, b) -> bs = a ++ b /\ length a = k.
Proof.
  unfold split_n. destruct (Nat.leb_spec k (length bs)); intros [= <- <-].
  split; [symmetry; apply firstn_skipn | apply firstn_length_le; lia].
Qed.

Lemma split_n_none k bs : split_n k bs = None <-> (length bs < k)%nat.
Proof.
  unfold split_n. destruct (Nat.leb_spec k (length bs)); split; intros; try discriminate; try lia; auto.
Qed.

Global Opaque b2n n2b enc dec_u dec_s be_bytes be_val le_bytes le_val modulus half.
