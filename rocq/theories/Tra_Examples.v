(** Concrete types and values. *)
From Verif Require Import Tra_Spec Tra_Proofs Tra_Claims.

(** Traits that look at one number. *)
Definition measured (f : content -> Z) : rust :=
  Rust (fun a b => f a =? f b)%Z (fun a b => negb (f a =? f b)%Z) f (fun a b => f a ?= f b)%Z
       (fun _ => "display") (fun _ => "debug").
Lemma measured_lawful f : lawful (measured f).
Proof.
  constructor; cbn; intros.
  - apply Z.eqb_refl.
  - apply Z.eqb_sym.
  - apply Z.eqb_eq in H, H0. apply Z.eqb_eq. congruence.
  - reflexivity.
  - now apply Z.eqb_eq.
  - rewrite Z.compare_eq_iff. now rewrite Z.eqb_eq.
  - apply Z.compare_antisym.
  - rewrite Z.compare_lt_iff in *. lia.
Qed.
Definition always (d : declaration) : nat -> declaration := fun _ => d.
Definition first_field (c : content) : Z := hd 0%Z (fields c).
Definition nothing (c : content) : Z := 0%Z.
Definition backwards (c : content) : Z := (- Z.of_nat (variant c))%Z.
Lemma always_laws k x f : laws (always (Declare k x (measured f))).
Proof. intros t. apply measured_lawful. Qed.
Definition val (id t v : nat) (fs : list Z) : inst := Inst id t (Content v fs 0) (Z.of_nat id).

(** A record compared by the first of its two fields. *)
Definition pair_of (x : exports) : nat -> declaration := always (Declare (Struct ["a"; "b"] false) x (measured first_field)).
Definition p12 := val 1 0 0 [1; 2]%Z.
Definition p13 := val 2 0 0 [1; 3]%Z.
Definition p21 := val 3 0 0 [2; 1]%Z.
Lemma p_made x : made (pair_of x) p12 /\ made (pair_of x) p13 /\ made (pair_of x) p21.
Proof.
  assert (ND : NoDup ["a"; "b"]) by (repeat constructor; cbn; intuition discriminate).
  repeat split; auto.
Qed.
Example ex_pairs : forall l,
  equal (pair_of all_exported) l (Ours p12) (Ours p13) = Gives true
  /\ differ (pair_of all_exported) l (Ours p12) (Ours p13) = Gives false
  /\ equal (pair_of all_exported) l (Ours p12) (Ours p21) = Gives false
  /\ key_hash (pair_of all_exported) l p12 = Gives (OfNumber 1) /\ key_hash (pair_of all_exported) l p13 = Gives (OfNumber 1)
  /\ ordered (pair_of all_exported) l Less p12 p21 = Gives true /\ ordered (pair_of all_exported) l GreaterEqual p12 p21 = Gives false
  /\ text_of (pair_of all_exported) l p12 = Some "display"
  /\ all_compared (pair_of all_exported) l /\ order_used l (Struct ["a"; "b"] false) /\ both_or_neither (pair_of all_exported 0)
  /\ not_over_jni l (pair_of all_exported 0) /\ text_used l (Struct ["a"; "b"] false) /\ compiles l (pair_of all_exported 0) = true.
Proof.
  intros l.
  assert (U : used l (Struct ["a"; "b"] false)) by (destruct l; try exact I; discriminate).
  do 8 (split; [destruct l; reflexivity |]). split; [intros t; split; [exact U | reflexivity] |].
  split; [destruct l; exact U |]. split; [reflexivity |]. split; [destruct l; exact I |].
  split; destruct l; try exact U; reflexivity.
Qed.
(** Without [Eq]. *)
Definition no_traits : exports := Exports false false false false false.
Example ex_fields : forall l,
  equal (pair_of no_traits) l (Ours p12) (Ours p13) = Gives false
  /\ equal (pair_of no_traits) l (Ours p12) (Ours (val 9 0 0 [1; 2]%Z)) = Gives true
  /\ by_fields l (Struct ["a"; "b"] false).
Proof. intros l. destruct l; repeat split. Qed.

(** * Refutations *)
Lemma eq_without_hash l : l = Kotlin \/ l = Swift ->
  exists lib a b, laws lib /\ made lib a /\ made lib b /\ compiles l (lib 0) = true
    /\ x_eq (d_exports (lib 0)) = true /\ used l (d_kind (lib 0))
    /\ key_equal lib l a b = Gives true /\ key_hash lib l a <> key_hash lib l b.
Proof.
  intros H. exists (pair_of (Exports true false false false false)), p12, p13.
  destruct (p_made (Exports true false false false false)) as (M1 & M2 & _).
  split; [apply always_laws |]. split; [exact M1 |]. split; [exact M2 |].
  destruct H as [-> | ->]; repeat split; try discriminate.
Qed.

Definition shapes : kind := Data [("Unit", []); ("Pair", ["a"; "b"])] false false.
Definition shapes_by (f : content -> Z) : nat -> declaration := always (Declare shapes all_exported (measured f)).
Definition s_unit := val 1 0 0 [].
Definition s_pair := val 2 0 1 [1; 2]%Z.
Definition s_other := val 3 0 1 [1; 3]%Z.
Lemma s_made f : made (shapes_by f) s_unit /\ made (shapes_by f) s_pair /\ made (shapes_by f) s_other.
Proof.
  assert (ND : NoDup ["a"; "b"]) by (repeat constructor; cbn; intuition discriminate).
  assert (N0 : NoDup (@nil string)) by constructor.
  repeat split; cbn; auto.
Qed.
Lemma jni_contract :
  exists lib a b, laws lib /\ made lib a /\ made lib b /\ d_exports (lib 0) = all_exported
    /\ key_equal lib KotlinJni a b = Gives true /\ key_hash lib KotlinJni a <> key_hash lib KotlinJni b
    /\ key_equal lib KotlinJni b a = Gives false.
Proof.
  exists (shapes_by nothing), s_unit, s_pair. destruct (s_made nothing) as (M1 & M2 & _).
  split; [apply always_laws |]. split; [exact M1 |]. split; [exact M2 |]. split; [reflexivity |].
  split; [reflexivity |]. split; [discriminate | reflexivity].
Qed.

Definition colours : kind := Flat [10; 20]%Z.
Definition failures : kind := Data [("Unit", []); ("Pair", ["a"; "b"])] true false.
Definition ignores_eq (l : lang) (k : kind) : Prop :=
  exists lib a b, laws lib /\ d_kind (lib 0) = k /\ d_exports (lib 0) = all_exported /\ compiles l (lib 0) = true
    /\ ty a = 0 /\ ty b = 0 /\ made lib a /\ made lib b
    /\ r_eq (d_rust (lib 0)) (inside a) (inside b) = true /\ equal lib l (Ours a) (Ours b) = Gives false.
Lemma ignored l k : In (l, k) [(Python, colours); (Python, failures); (KotlinJni, colours); (KotlinJni, shapes);
                               (Ruby, colours); (Ruby, shapes); (Ruby, failures)] -> ignores_eq l k.
Proof.
  assert (ND : NoDup ["a"; "b"]) by (repeat constructor; cbn; intuition discriminate).
  assert (N0 : NoDup (@nil string)) by constructor.
  intros H. exists (always (Declare k all_exported (measured nothing))).
  cbn [In] in H. repeat destruct H as [[= <- <-] | H]; try contradiction.
  1,3,5: exists (val 1 0 0 []), (val 2 0 1 []); split; [apply always_laws |]; repeat split; cbn; auto.
  3: exists s_unit, s_pair; split; [apply always_laws |]; repeat split; cbn; auto.
  all: solve [exists s_pair, s_other; split; [apply always_laws |]; repeat split; cbn; auto].
Qed.

Definition ignores_ord (l : lang) (k : kind) (got : outcome bool) : Prop :=
  exists lib a b, laws lib /\ d_kind (lib 0) = k /\ d_exports (lib 0) = all_exported /\ compiles l (lib 0) = true
    /\ ty a = 0 /\ ty b = 0 /\ made lib a /\ made lib b
    /\ r_cmp (d_rust (lib 0)) (inside a) (inside b) = Gt /\ ordered lib l Greater a b = got.
Lemma order_ignored l k got :
  In (l, k, got) [(Python, colours, Raises); (Python, failures, Raises); (KotlinJni, colours, Gives false);
                  (Ruby, colours, Gives false); (Ruby, failures, Raises)] -> ignores_ord l k got.
Proof.
  assert (ND : NoDup ["a"; "b"]) by (repeat constructor; cbn; intuition discriminate).
  assert (N0 : NoDup (@nil string)) by constructor.
  intros H. exists (always (Declare k all_exported (measured backwards))).
  cbn [In] in H. repeat destruct H as [[= <- <- <-] | H]; try contradiction.
  1,3,4: exists (val 1 0 0 []), (val 2 0 1 []); split; [apply always_laws |]; repeat split; cbn; auto.
  all: exists s_unit, s_pair; split; [apply always_laws |]; repeat split; cbn; auto.
Qed.
Definition ignores_display (l : lang) (k : kind) : Prop :=
  exists lib a, laws lib /\ d_kind (lib 0) = k /\ d_exports (lib 0) = all_exported /\ compiles l (lib 0) = true
    /\ ty a = 0 /\ made lib a /\ text_of lib l a = None.
Lemma display_ignored l k :
  In (l, k) [(Python, colours); (Python, failures); (Kotlin, Struct [] false); (KotlinJni, Struct [] false); (KotlinJni, colours);
             (KotlinJni, shapes); (Swift, failures); (Ruby, colours); (Ruby, failures)] -> ignores_display l k.
Proof.
  assert (ND : NoDup ["a"; "b"]) by (repeat constructor; cbn; intuition discriminate).
  assert (N0 : NoDup (@nil string)) by constructor.
  intros H. exists (always (Declare k all_exported (measured nothing))).
  cbn [In] in H. repeat destruct H as [[= <- <-] | H]; try contradiction;
    first [ solve [exists (val 1 0 0 []); split; [apply always_laws |]; repeat split; cbn; auto]
          | solve [exists s_pair; split; [apply always_laws |]; repeat split; cbn; auto] ].
Qed.
Lemma empty_record_order l : l = Kotlin \/ l = KotlinJni ->
  exists lib a, laws lib /\ d_kind (lib 0) = Struct [] false /\ d_exports (lib 0) = all_exported /\ compiles l (lib 0) = true
    /\ made lib a /\ ordered lib l LessEqual a a = Absent.
Proof.
  intros H. exists (always (Declare (Struct [] false) all_exported (measured nothing))), (val 1 0 0 []).
  split; [apply always_laws |]. destruct H as [-> | ->]; repeat split; constructor.
Qed.

(** Two types of records without traits, and an empty one. *)
Definition records (t : nat) : declaration :=
  Declare (Struct (match t with 0 => ["a"] | 1 => ["a"; "b"] | _ => [] end) false) no_traits (measured first_field).
Lemma records_laws : laws records. Proof. intros t. apply measured_lawful. Qed.
Lemma duck l : l = Python \/ l = Ruby ->
  exists a b c, made records a /\ made records b /\ made records c /\ ty a <> ty b
    /\ equal records l (Ours a) (Ours b) = Gives true /\ equal records l (Ours b) (Ours a) = Raises
    /\ (forall n, equal records l (Ours a) (Foreign n) = Raises)
    /\ (forall v, equal records l (Ours c) v = Gives true).
Proof.
  assert (ND : NoDup ["a"; "b"]) by (repeat constructor; cbn; intuition discriminate).
  assert (N1 : NoDup ["a"]) by (repeat constructor; cbn; intuition discriminate).
  assert (N0 : NoDup (@nil string)) by constructor.
  intros H. exists (val 1 0 0 [5]%Z), (val 2 1 0 [5; 6]%Z), (val 3 2 0 []).
  split; [repeat split; auto |]. split; [repeat split; auto |]. split; [repeat split; auto |]. split; [discriminate |].
  destruct H as [-> | ->]; repeat split; reflexivity.
Qed.
(** Two enums, with and without data. *)
Definition two_enums (t : nat) : declaration :=
  Declare (match t with
           | 0 => Flat [1; 2]%Z | 1 => Flat [2; 1]%Z
           | 2 => Data [("On", []); ("Level", ["n"])] false false
           | _ => Data [("Level", ["n"]); ("Off", [])] false false
           end) no_traits (measured first_field).
Lemma across_types :
  exists lib a b c d, laws lib /\ made lib a /\ made lib b /\ made lib c /\ made lib d
    /\ ty a <> ty b /\ equal lib Ruby (Ours a) (Ours b) = Gives true
    /\ ty c <> ty d /\ equal lib Ruby (Ours c) (Ours d) = Gives true.
Proof.
  assert (N1 : NoDup ["n"]) by (repeat constructor; cbn; intuition discriminate).
  exists two_enums, (val 1 0 0 []), (val 2 1 1 []), (val 3 2 1 [7]%Z), (val 4 3 0 [7]%Z).
  split; [intros t; apply measured_lawful |]. repeat match goal with |- _ /\ _ => split end; cbn; auto; discriminate.
Qed.

(** What does not compile. *)
Lemma refused :
  (forall ds r, compiles Kotlin (Declare (Flat ds) (Exports true true true false false) r) = false)
  /\ (forall r, compiles Kotlin (Declare (Object true) (Exports true true true false false) r) = false)
  /\ (forall names r, compiles Swift (Declare (Struct names true) (Exports false true false false false) r) = false)
  /\ (forall e r, compiles Swift (Declare (Object e) (Exports false false true false false) r) = false).
Proof. repeat split. Qed.
(** A hash of more than 32 bits. *)
Example ex_hash : let lib := always (Declare (Struct ["a"] false) all_exported (measured first_field)) in
  let i := val 1 0 0 [2 ^ 63 + 5]%Z in
  key_hash lib Kotlin i = Gives (OfNumber 5) /\ key_hash lib Python i = Gives (OfNumber 9)
  /\ key_hash lib Swift i = Gives (OfNumber (2 ^ 63 + 5)).
Proof. repeat split. Qed.
Example ex_contract : one_object p12 p13 /\ made (pair_of all_exported) p12 /\ laws (pair_of all_exported)
  /\ key_equal (pair_of all_exported) Kotlin p12 p13 = Gives true.
Proof. split; [intros D; discriminate D |]. split; [exact (proj1 (p_made _)) |]. split; [apply always_laws | reflexivity]. Qed.
