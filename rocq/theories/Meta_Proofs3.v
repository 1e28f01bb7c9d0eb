From Verif Require Import Base Utf8 Utf8_Proofs Meta_Types Meta_Model Meta_Spec Meta_Proofs Meta_Proofs2.
Open Scope Z_scope.

(** * Recursion depth: it never exceeds the number of bytes *)

#[local] Hint Resolve good_ret good_fail good_u8 good_le good_take good_bool good_string good_opt_string
  good_long good_opt_long good_kind good_type good_opt_type good_return good_literal good_opt_default
  good_opt_literal good_n good_list good_u32 good_pass good_param good_field good_variant good_flat
  good_object : good.

Definition dep {A} (D : nat) (p : rd A) : Prop := forall b, p b = Deep -> (D <= length b)%nat.

Lemma dep_bind {D} {A B} (p : rd A) (f : A -> rd B) :
  good p -> dep D p -> (forall x, dep D (f x)) -> dep D (rbind p f).
Proof.
  intros G P F b E. unfold rbind in E. destruct (p b) as [[x r]| | |] eqn:Ep; try discriminate.
  - destruct (G _ _ _ Ep) as (q & -> & _). rewrite app_length. apply (Nat.le_trans _ (length r)); [|lia]. eapply F; eauto.
  - apply P; auto.
Qed.
Lemma dep_ret {D} {A} (x : A) : dep D (ret x).
Proof. intros b [=]. Qed.
Lemma dep_fail {D} {A} : dep D (@fail A).
Proof. intros b [=]. Qed.
Lemma dep_u8 {D} : dep D read_u8.
Proof. intros [|v b] [=]. Qed.
Lemma dep_le {D} k : dep D (read_le k).
Proof. intros b. unfold read_le. destruct (split_n k b) as [[]|]; intros [=]. Qed.
Lemma dep_string {D} : dep D read_string.
Proof.
  intros [|v b] E; [discriminate|]. unfold read_string, rbind in E. cbn [read_u8] in E.
  unfold take_str in E. destruct (split_n (N.to_nat (b2n v)) b) as [[a r]|];
    [destruct (utf8_valid a); discriminate|discriminate].
Qed.
Lemma dep_long {D} : dep D read_long_string.
Proof.
  intros b E. unfold read_long_string, rbind in E. unfold read_u16, read_le in E.
  destruct (split_n 2 b) as [[a r]|]; [|discriminate].
  unfold take_str in E. destruct (split_n _ r) as [[a' r']|];
    [destruct (utf8_valid a'); discriminate|discriminate].
Qed.
Create HintDb dep.
#[local] Hint Resolve dep_ret dep_fail dep_u8 dep_le dep_string dep_long : dep.
Ltac dep_step :=
  first [ solve [auto with dep] | apply dep_bind; [solve [repeat good_step]| |let x := fresh "x" in intros x] ].
Lemma dep_bool {D} : dep D read_bool.
Proof. unfold read_bool. repeat dep_step. Qed.
#[local] Hint Resolve dep_bool : dep.
Lemma dep_opt_string {D} : dep D read_opt_string.
Proof. unfold read_opt_string. dep_step; [dep_step|]. destruct x; repeat dep_step. Qed.
#[local] Hint Resolve dep_opt_string : dep.
Lemma dep_opt_long {D} : dep D read_opt_long_string.
Proof. unfold read_opt_long_string. repeat dep_step. Qed.
Lemma dep_kind {D} : dep D read_trait_kind.
Proof. unfold read_trait_kind. dep_step; [dep_step|]. destruct (kind_of x); repeat dep_step. Qed.
#[local] Hint Resolve dep_opt_long dep_kind : dep.
Lemma dep_type d : dep d (read_type d).
Proof.
  induction d as [|d IH]; cbn [read_type].
  - intros b _. lia.
  - intros [|v b] E; [discriminate|]. cbn [length]. apply le_n_S.
    unfold rbind at 1 in E. cbn [read_u8] in E. revert b E.
    match goal with |- forall b, ?p b = Deep -> _ => change (dep d p) end.
    destruct (tcode_of v) as [[]|]; repeat dep_step.
Qed.
#[local] Hint Resolve dep_type : dep.
Lemma dep_peek {D} {A} (f : byte -> rd A) : (forall v, dep D (f v)) -> dep D (rbind peek_u8 f).
Proof. intros F [|v b] E; [discriminate|]. unfold rbind in E. cbn [peek_u8] in E. eapply F; eauto. Qed.
Lemma dep_opt_type d : dep d (read_opt_type d).
Proof.
  unfold read_opt_type. apply dep_peek. intros v. destruct (tcode_of v) as [[]|]; repeat dep_step.
Qed.
#[local] Hint Resolve dep_opt_type : dep.
Lemma dep_return d : dep d (read_return_type d).
Proof.
  unfold read_return_type. apply dep_peek. intros v. destruct (tcode_of v) as [[]|]; repeat dep_step.
Qed.
#[local] Hint Resolve dep_return : dep.
Lemma dep_default_ {D} (p : rd literal) : good p -> dep D p -> dep D (read_default_ p).
Proof.
  intros G P. unfold read_default_. dep_step; [dep_step|].
  destruct (Byte.eqb x DEFVALUE_DEFAULT); [repeat dep_step|].
  destruct (Byte.eqb x DEFVALUE_LITERAL); repeat dep_step.
Qed.
Lemma dep_literal_ {D} (p : rd literal) t : dep D p -> dep D (read_literal_ p t).
Proof.
  intros P. unfold read_literal_. apply dep_bind; [good_step|dep_step|intros x].
  destruct (lcode_of x) as [[]|]; auto with dep.
  - destruct t; repeat dep_step.
  - dep_step; [dep_step|]. destruct (int_lit t x0); repeat dep_step.
  - destruct t; repeat dep_step.
  - repeat dep_step.
  - destruct t; repeat dep_step.
Qed.
Lemma dep_literal {D} t : dep D (read_literal t).
Proof.
  assert (H : forall n t, (ty_size t < n)%nat -> dep D (read_literal t)).
  { intros n; induction n as [|n IH]; intros u L; [lia|].
    rewrite read_literal_unfold. apply dep_literal_.
    destruct (base_type u) as [| | | | | | | | | | | | | | | | | | | |w| | | |] eqn:B; auto with dep.
    apply dep_bind; [apply good_default_, good_literal| |intros; repeat dep_step].
    apply dep_default_; [apply good_literal|]. apply IH.
    destruct u as [| | | | | | | | | | | | | | | | | | | | | | | |? ? u]; cbn [base_type] in B;
      try discriminate B; subst; cbn [ty_size] in L; try lia.
    injection B as ->. cbn in *. lia. }
  apply (H (S (ty_size t))). lia.
Qed.
#[local] Hint Resolve dep_literal : dep.
Lemma dep_opt_default {D} t : dep D (read_opt_default t).
Proof.
  unfold read_opt_default, read_default. dep_step; [dep_step|].
  destruct x; [|repeat dep_step].
  apply dep_bind; [apply good_default_; auto with good|apply dep_default_; auto with good dep|intros; repeat dep_step].
Qed.
Lemma dep_opt_literal {D} t : dep D (read_opt_literal t).
Proof. unfold read_opt_literal. dep_step; [dep_step|]. destruct x; repeat dep_step. Qed.
Lemma dep_n {D} {A} (p : rd A) n : good p -> dep D p -> dep D (read_n n p).
Proof. intros G P. induction n; cbn [read_n]; repeat dep_step. Qed.
#[local] Hint Resolve dep_opt_default dep_opt_literal : dep.
Lemma dep_list {D} {A} (p : rd A) : good p -> dep D p -> dep D (read_list p).
Proof.
  intros G P. unfold read_list. apply dep_bind; [good_step|dep_step|intros]. apply dep_n; auto.
Qed.
#[local] Hint Resolve dep_list : dep.
Lemma dep_pass {D} : dep D read_pass_by.
Proof. unfold read_pass_by. dep_step; [dep_step|]. dep_step; [dep_step|]. destruct x, x0; repeat dep_step. Qed.
#[local] Hint Resolve dep_pass : dep.
Lemma dep_param d : dep d (read_param d).
Proof. unfold read_param. repeat dep_step. Qed.
Lemma dep_field d : dep d (read_field d).
Proof. unfold read_field. repeat dep_step. Qed.
#[local] Hint Resolve dep_param dep_field : dep.
#[local] Hint Extern 1 (dep _ (read_list _)) => (apply dep_list; [solve [repeat good_step]|solve [repeat dep_step]]) : dep.
Lemma dep_variant d : dep d (read_variant d).
Proof. unfold read_variant. repeat dep_step. Qed.
Lemma dep_flat {D} : dep D read_flat_variant.
Proof. unfold read_flat_variant. repeat dep_step. Qed.
Lemma dep_object {D} : dep D read_object.
Proof. unfold read_object. repeat dep_step. Qed.
#[local] Hint Resolve dep_variant dep_flat dep_object : dep.

Definition depi {A} (D : nat) (p : bytes -> rd A) : Prop := forall h b, p (h ++ b) b = Deep -> (D <= length b)%nat.
Lemma depi_pan {D} {A} (p : rd A) : dep D p -> depi D (fun _ => p).
Proof. intros P h b. apply P. Qed.
Lemma depi_bind {D} {A B} (p : bytes -> rd A) (f : bytes -> A -> rd B) :
  goodi p -> depi D p -> (forall x, depi D (fun i => f i x)) -> depi D (fun i => rbind (p i) (f i)).
Proof.
  intros G P F h b E. unfold rbind in E.
  destruct (p (h ++ b) b) as [[x r]| | |] eqn:Ep; try discriminate.
  - destruct (G _ _ _ _ Ep) as (q & -> & _). rewrite app_length. apply (Nat.le_trans _ (length r)); [|lia]. rewrite app_assoc in E. eapply F; eauto.
  - eapply P; eauto.
Qed.
Lemma dep_u32 {D} : dep D read_u32.
Proof. apply dep_le. Qed.
#[local] Hint Resolve dep_u32 : dep.
Ltac di :=
  match goal with
  | |- depi _ (fun _ => ?p) => apply (depi_pan p); solve [repeat dep_step]
  | |- depi _ (fun i => rbind (@?p i) (@?f i)) => apply (depi_bind p f); [gs| |let x := fresh "x" in intros x]
  end.
Lemma depi_checksum {D} : depi D checksum_so_far.
Proof. intros h b [=]. Qed.
Lemma depi_fn_tail d mp n : depi d (fun i => read_fn_tail d i mp n).
Proof. unfold read_fn_tail. repeat di. apply depi_checksum. Qed.
Lemma depi_method d : depi d (fun i => read_method d i).
Proof. unfold read_method. repeat di. apply depi_fn_tail. Qed.
Lemma depi_mmethod d : depi d (fun i => read_metadata_method d i).
Proof.
  unfold read_metadata_method. di; [di|]. destruct (icode_of x) as [[]|]; try di. apply depi_method.
Qed.
Lemma depi_utrait d : depi d (fun i => read_utrait d i).
Proof.
  unfold read_utrait. di; [di|].
  destruct x; try di; repeat (first [apply depi_mmethod | di]).
Qed.
Lemma depi_item d : depi d (read_item d).
Proof.
  change (depi d (fun i => read_item d i)). unfold read_item. di; [di|].
  destruct (icode_of x) as [[]|]; try di;
    repeat (first [apply depi_fn_tail | apply depi_method | apply depi_utrait | di]).
  - apply depi_pan.
    destruct (shape_of x3) as [sh|]; [|dep_step].
    apply dep_bind; [good_step|dep_step|intros h]. apply dep_bind; [destruct h; repeat good_step| |intros t].
    + destruct h; repeat dep_step.
    + destruct sh as [|[]]; repeat dep_step.
  - destruct (is_self x1 (f_ret x3)); di.
Qed.
Lemma read_deep d b : read d b = Deep -> (d <= length b)%nat.
Proof. apply (depi_item d [] b). Qed.


(** * A tower of options as deep as the stack *)
Lemma deep_options n r : read_type n (repeat x0c n ++ r) = Deep.
Proof. induction n as [|n IH]; [reflexivity|]. cbn [repeat app read_type]. unfold rbind at 1. cbn [read_u8 tcode_of]. unfold rbind at 1. rewrite IH. reflexivity. Qed.
Lemma deep_item d : read d ([x0f; x00; x00] ++ repeat x0c d) = Deep.
Proof.
  unfold read, read_item. cbn [app]. unfold rbind at 1. cbn [read_u8 icode_of].
  unfold rbind at 1. unfold rbind at 1.
  change (read_string (x00 :: x00 :: repeat x0c d)) with (Ok (@nil byte, x00 :: repeat x0c d)).
  cbv iota beta. change (read_string (x00 :: repeat x0c d)) with (Ok (@nil byte, repeat x0c d)).
  cbv iota beta. unfold rbind at 1. pose proof (deep_options d []) as E. rewrite app_nil_r in E. rewrite E. reflexivity.
Qed.
