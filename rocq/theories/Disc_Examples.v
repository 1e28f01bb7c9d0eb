(** Concrete cases for C36. *)
From Verif Require Import Base Meta_Types Disc_Model Disc_Spec Disc_Proofs.
Local Open Scope Z_scope.

(** enum E { A, B = -300, C, D = 7, E } *)
Definition mixed : list written :=
  [Nothing; Written true 300; Nothing; Written false 7; Nothing].

Example mixed_values : rustc_discrs None mixed = [0; -300; -299; 7; 8].
Proof. reflexivity. Qed.

Lemma mixed_accepted : accepted None mixed.
Proof.
  split.
  - cbn [mixed rustc_discrs value in_range In]. intros z H.
    repeat (destruct H as [<-|H]; [cbn; lia|]). contradiction.
  - cbn [mixed In unsigned]. intros n m H.
    repeat (destruct H as [E|H]; [first [discriminate E | injection E as <- <-; split; [lia|discriminate]]|]).
    contradiction.
Qed.

Definition mixed_read : list (option literal) :=
  [None; Some (LInt (-300) Decimal_ TI64); None; Some (LUInt 7 Decimal_ TU64); None].

Lemma mixed_recorded : Forall2 recorded mixed mixed_read.
Proof.
  repeat (apply Forall2_cons; [first [reflexivity | eexists; split; reflexivity]|]). constructor.
Qed.

Example mixed_python : determine_discriminants None mixed_read =
  Ok (TI16, [LInt 0 Decimal_ TI16; LInt (-300) Decimal_ TI16; LInt (-299) Decimal_ TI16;
             LUInt 7 Decimal_ TI16; LUInt 8 Decimal_ TI16]).
Proof. vm_compute. reflexivity. Qed.

Example mixed_kotlin : variant_discr mixed_read 2 = Ok (LInt (-299) Decimal_ TI64).
Proof. vm_compute. reflexivity. Qed.

(** #[repr(u64)] enum E { A = 0x7fff_ffff_ffff_ffff, B } *)
Definition large : list written := [Written false (2 ^ 63 - 1); Nothing].

Lemma large_accepted : accepted (Some TU64) large.
Proof.
  split.
  - cbn [large rustc_discrs value in_range In]. intros z H.
    repeat (destruct H as [<-|H]; [cbn; lia|]). contradiction.
  - cbn [large In unsigned]. intros n m [E|[E|[]]]; [|discriminate].
    injection E as <- <-. split; [lia|reflexivity].
Qed.

Definition large_read : list (option literal) := [Some (LUInt (2 ^ 63 - 1) Decimal_ TU64); None].

Lemma large_recorded : Forall2 recorded large large_read.
Proof.
  apply Forall2_cons; [eexists; split; reflexivity|].
  apply Forall2_cons; [reflexivity|constructor].
Qed.

Lemma large_shown : exists repr vs rs index z l,
  integer_repr repr /\ accepted repr vs /\ Forall2 recorded vs rs /\
  nth_error (rustc_discrs None vs) index = Some z /\
  variant_discr rs index = Ok l /\ shown l <> Some z.
Proof.
  exists (Some TU64), large, large_read, 1%nat, (2 ^ 63), (LInt (- 2 ^ 63) Decimal_ TI64).
  split; [exists 0; cbn; lia|]. split; [exact large_accepted|]. split; [exact large_recorded|].
  split; [reflexivity|]. split; [vm_compute; reflexivity|]. cbn. discriminate.
Qed.

(** Python gets the same enum right. *)
Example large_python : determine_discriminants (Some TU64) large_read =
  Ok (TU64, [LUInt (2 ^ 63 - 1) Decimal_ TU64; LUInt (2 ^ 63) Decimal_ TU64]).
Proof. vm_compute. reflexivity. Qed.
