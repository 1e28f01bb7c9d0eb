(** C67: comparing, hashing and printing values. *)
From Verif Require Import Tra_Spec Tra_Proofs Tra_Claims Tra_Examples.

(** `==` answers what Rust's `Eq` answers, for the types whose traits are used. *)
Theorem C67_equality_partial : forall lib l (i j : inst),
  ty i = ty j -> used l (d_kind (lib (ty i))) -> x_eq (d_exports (lib (ty i))) = true ->
  equal lib l (Ours i) (Ours j) = Gives (r_eq (d_rust (lib (ty i))) (inside i) (inside j)).
Proof. exact equality. Qed.
Print Assumptions C67_equality_partial.

(** and `!=` the opposite. *)
Theorem C67_inequality_partial : forall lib l (i j : inst), laws lib ->
  ty i = ty j -> used l (d_kind (lib (ty i))) -> x_eq (d_exports (lib (ty i))) = true ->
  differ lib l (Ours i) (Ours j) = Gives (negb (r_eq (d_rust (lib (ty i))) (inside i) (inside j))).
Proof. exact inequality. Qed.
Print Assumptions C67_inequality_partial.

(** A value of another type is never equal, whichever side it is on. *)
Theorem C67_other_type_partial : forall lib l (i : inst) v, all_compared lib l -> strange i v ->
  equal lib l (Ours i) v = (if match l with Swift => true | _ => false end then Absent else Gives false)
  /\ equal lib l v (Ours i) = equal lib l (Ours i) v.
Proof. exact other_type. Qed.
Print Assumptions C67_other_type_partial.

(** Over all values equality is an equivalence and raises nothing. *)
Theorem C67_equivalence_partial : forall lib l, laws lib -> all_compared lib l ->
  (forall a, equal lib l a a = Gives true)
  /\ (forall a b, equal lib l a b = equal lib l b a)
  /\ (forall a b c, equal lib l a b = Gives true -> equal lib l b c = Gives true -> equal lib l a c = Gives true)
  /\ (forall a b, equal lib l a b <> Raises).
Proof. exact equivalence. Qed.
Print Assumptions C67_equivalence_partial.

(** Without `Eq`, values of one type are equal when they are made of the same. *)
Theorem C67_by_fields_partial : forall lib l (i j : inst), ty i = ty j -> by_fields l (d_kind (lib (ty i))) -> x_eq (d_exports (lib (ty i))) = false ->
  match d_kind (lib (ty i)) with Data vs _ _ => NoDup (map fst vs) | _ => True end ->
  made lib i -> made lib j ->
  equal lib l (Ours i) (Ours j) = Gives (alike (inside i) (inside j)).
Proof. exact by_field. Qed.
Print Assumptions C67_by_fields_partial.

(** Equal keys have the same hash code, if `Eq` and `Hash` are exported together or not at all. *)
Theorem C67_hash_partial : forall lib l (i j : inst) h h', laws lib -> one_object i j ->
  both_or_neither (lib (ty i)) -> both_or_neither (lib (ty j)) -> not_over_jni l (lib (ty i)) ->
  key_equal lib l i j = Gives true -> key_hash lib l i = Gives h -> key_hash lib l j = Gives h' -> h = h'.
Proof. exact contract. Qed.
Print Assumptions C67_hash_partial.

(** In Ruby also when `Eq` is exported without `Hash`. *)
Theorem C67_ruby_keys_partial : forall lib (i j : inst) h h', laws lib ->
  (x_hash (d_exports (lib (ty i))) = true -> x_eq (d_exports (lib (ty i))) = true) ->
  key_equal lib Ruby i j = Gives true -> key_hash lib Ruby i = Gives h -> key_hash lib Ruby j = Gives h' -> h = h'.
Proof. exact rb_keys. Qed.
Print Assumptions C67_ruby_keys_partial.

(** Where `Hash` is exported and used every value has a hash code. *)
Theorem C67_hashable_partial : forall lib l (i : inst), used l (d_kind (lib (ty i))) -> x_hash (d_exports (lib (ty i))) = true ->
  exists n, key_hash lib l i = Gives (OfNumber n).
Proof. exact hashable. Qed.
Print Assumptions C67_hashable_partial.

(** The four comparisons answer what Rust's `Ord` answers. *)
Theorem C67_order_partial : forall lib l o (i j : inst), laws lib -> ty i = ty j ->
  order_used l (d_kind (lib (ty i))) -> x_ord (d_exports (lib (ty i))) = true ->
  ordered lib l o i j = Gives (rust_order o (r_cmp (d_rust (lib (ty i))) (inside i) (inside j))).
Proof. exact order_agrees. Qed.
Print Assumptions C67_order_partial.

(** Exactly one of `<`, `==` and `>` holds, and the others follow. *)
Theorem C67_one_of_three_partial : forall lib l (i j : inst), laws lib -> ty i = ty j ->
  used l (d_kind (lib (ty i))) -> x_ord (d_exports (lib (ty i))) = true -> x_eq (d_exports (lib (ty i))) = true ->
  exists lt eq gt, ordered lib l Less i j = Gives lt /\ equal lib l (Ours i) (Ours j) = Gives eq
    /\ ordered lib l Greater i j = Gives gt
    /\ ordered lib l LessEqual i j = Gives (lt || eq) /\ ordered lib l GreaterEqual i j = Gives (gt || eq)
    /\ ordered lib l Greater j i = Gives lt
    /\ (lt, eq, gt) = (match r_cmp (d_rust (lib (ty i))) (inside i) (inside j) with
                       | Lt => (true, false, false) | Eq => (false, true, false) | Gt => (false, false, true) end).
Proof. exact one_of_three. Qed.
Print Assumptions C67_one_of_three_partial.

(** A value prints as Rust's `Display` says. *)
Theorem C67_text_partial : forall lib l (i : inst), text_used l (d_kind (lib (ty i))) -> x_display (d_exports (lib (ty i))) = true ->
  text_of lib l i = Some (r_display (d_rust (lib (ty i))) (inside i)).
Proof. exact text. Qed.
Print Assumptions C67_text_partial.

(** Exporting every trait is accepted, except in Kotlin for enums without data and objects used as errors. *)
Theorem C67_accepted : forall l d, d_exports d = all_exported ->
  compiles l d = false <-> l = Kotlin /\ ((exists ds, d_kind d = Flat ds) \/ d_kind d = Object true).
Proof. exact accepted. Qed.
Print Assumptions C67_accepted.

(** Refuted: some exports do not compile. *)
Theorem C67_refused_refuted : (forall ds r, compiles Kotlin (Declare (Flat ds) (Exports true true true false false) r) = false)
  /\ (forall r, compiles Kotlin (Declare (Object true) (Exports true true true false false) r) = false)
  /\ (forall names r, compiles Swift (Declare (Struct names true) (Exports false true false false false) r) = false)
  /\ (forall e r, compiles Swift (Declare (Object e) (Exports false false true false false) r) = false).
Proof. exact refused. Qed.
Print Assumptions C67_refused_refuted.

(** Refuted: exporting `Eq` without `Hash` makes equal keys with different hash codes. *)
Theorem C67_eq_without_hash_refuted : forall l, l = Kotlin \/ l = Swift ->
  exists lib a b, laws lib /\ made lib a /\ made lib b /\ compiles l (lib 0) = true
    /\ x_eq (d_exports (lib 0)) = true /\ used l (d_kind (lib 0))
    /\ key_equal lib l a b = Gives true /\ key_hash lib l a <> key_hash lib l b.
Proof. exact eq_without_hash. Qed.
Print Assumptions C67_eq_without_hash_refuted.

(** Refuted: so does exporting both for an enum with data in the bindings over JNI, where equality is not even symmetric. *)
Theorem C67_jni_hash_refuted : exists lib a b, laws lib /\ made lib a /\ made lib b /\ d_exports (lib 0) = all_exported
    /\ key_equal lib KotlinJni a b = Gives true /\ key_hash lib KotlinJni a <> key_hash lib KotlinJni b
    /\ key_equal lib KotlinJni b a = Gives false.
Proof. exact jni_contract. Qed.
Print Assumptions C67_jni_hash_refuted.

(** Refuted: these types export `Eq` and the language compares them otherwise. *)
Theorem C67_ignored_refuted : forall l k, In (l, k) [(Python, colours); (Python, failures); (KotlinJni, colours); (KotlinJni, shapes);
                               (Ruby, colours); (Ruby, shapes); (Ruby, failures)] -> ignores_eq l k.
Proof. exact ignored. Qed.
Print Assumptions C67_ignored_refuted.

(** Refuted: these export `Ord`, and comparing them raises or answers otherwise. *)
Theorem C67_order_ignored_refuted : forall l k got,
  In (l, k, got) [(Python, colours, Raises); (Python, failures, Raises); (KotlinJni, colours, Gives false);
                  (Ruby, colours, Gives false); (Ruby, failures, Raises)] -> ignores_ord l k got.
Proof. exact order_ignored. Qed.
Print Assumptions C67_order_ignored_refuted.

(** Refuted: a record without fields that exports `Ord` cannot be compared in Kotlin. *)
Theorem C67_empty_record_refuted : forall l, l = Kotlin \/ l = KotlinJni ->
  exists lib a, laws lib /\ d_kind (lib 0) = Struct [] false /\ d_exports (lib 0) = all_exported /\ compiles l (lib 0) = true
    /\ made lib a /\ ordered lib l LessEqual a a = Absent.
Proof. exact empty_record_order. Qed.
Print Assumptions C67_empty_record_refuted.

(** Refuted: these export `Display` and print otherwise. *)
Theorem C67_display_ignored_refuted : forall l k,
  In (l, k) [(Python, colours); (Python, failures); (Kotlin, Struct [] false); (KotlinJni, Struct [] false); (KotlinJni, colours);
             (KotlinJni, shapes); (Swift, failures); (Ruby, colours); (Ruby, failures)] -> ignores_display l k.
Proof. exact display_ignored. Qed.
Print Assumptions C67_display_ignored_refuted.

(** Refuted: comparing a record with a value of another type may raise or answer yes. *)
Theorem C67_records_refuted : forall l, l = Python \/ l = Ruby ->
  exists a b c, made records a /\ made records b /\ made records c /\ ty a <> ty b
    /\ equal records l (Ours a) (Ours b) = Gives true /\ equal records l (Ours b) (Ours a) = Raises
    /\ (forall n, equal records l (Ours a) (Foreign n) = Raises)
    /\ (forall v, equal records l (Ours c) v = Gives true).
Proof. exact duck. Qed.
Print Assumptions C67_records_refuted.

(** Refuted: values of two enums may be equal in Ruby. *)
Theorem C67_across_types_refuted : exists lib a b c d, laws lib /\ made lib a /\ made lib b /\ made lib c /\ made lib d
    /\ ty a <> ty b /\ equal lib Ruby (Ours a) (Ours b) = Gives true
    /\ ty c <> ty d /\ equal lib Ruby (Ours c) (Ours d) = Gives true.
Proof. exact across_types. Qed.
Print Assumptions C67_across_types_refuted.

