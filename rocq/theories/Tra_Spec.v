(** What exporting traits is expected to mean. *)
From Verif Require Export Tra_Model.

(** The traits keep the rules Rust documents for them. *)
Record lawful (r : rust) : Prop := {
  eq_self : forall a, r_eq r a a = true;
  eq_back : forall a b, r_eq r a b = r_eq r b a;
  eq_chain : forall a b c, r_eq r a b = true -> r_eq r b c = true -> r_eq r a c = true;
  ne_not_eq : forall a b, r_ne r a b = negb (r_eq r a b);
  hash_eq : forall a b, r_eq r a b = true -> r_hash r a = r_hash r b;
  cmp_eq : forall a b, r_cmp r a b = Eq <-> r_eq r a b = true;
  cmp_back : forall a b, r_cmp r b a = CompOpp (r_cmp r a b);
  cmp_chain : forall a b c, r_cmp r a b = Lt -> r_cmp r b c = Lt -> r_cmp r a c = Lt }.
Definition laws (lib : nat -> declaration) : Prop := forall t, lawful (d_rust (lib t)).

(** A value has the fields its type says, and only an object has anything else. *)
Definition well_made (d : declaration) (c : content) : Prop :=
  match d_kind d with
  | Object _ => variant c = 0 /\ fields c = []
  | Struct names _ => variant c = 0 /\ state c = 0%Z /\ NoDup names /\ length (fields c) = length names
  | Flat ds => variant c < length ds /\ state c = 0%Z /\ fields c = []
  | Data vs _ _ =>
      variant c < length vs /\ state c = 0%Z /\
      let names := snd (nth (variant c) vs ("", [])) in NoDup names /\ length (fields c) = length names
  end.
Definition made (lib : nat -> declaration) (i : inst) : Prop := well_made (lib (ty i)) (inside i).

(** The types whose exported traits the bindings use. *)
Definition used (l : lang) (k : kind) : Prop :=
  match l, k with
  | _, Object _ => True
  | Swift, _ => True
  | Python, Struct _ _ | Ruby, Struct _ _ => True
  | Kotlin, Struct names _ | KotlinJni, Struct names _ => names <> []
  | Python, Data _ err _ => err = false
  | Kotlin, Data _ _ _ => True
  | KotlinJni, Data _ err _ => err = true
  | _, _ => False
  end.
(** Those whose order is used: also the variants of an enum in the bindings over JNI and in Ruby. *)
Definition order_used (l : lang) (k : kind) : Prop :=
  match l, k with
  | KotlinJni, Data _ _ _ => True
  | Ruby, Data _ err _ => err = false
  | _, _ => used l k
  end.
(** Those whose [Display] is used. *)
Definition text_used (l : lang) (k : kind) : Prop :=
  match l, k with
  | Swift, Data _ err _ => err = false
  | Ruby, Data _ err _ => err = false
  | Kotlin, Flat _ => True
  | _, _ => used l k
  end.

(** What Rust answers to the four comparisons. *)
Definition rust_order (o : order) (c : comparison) : bool :=
  match o, c with
  | Less, Lt | Greater, Gt | LessEqual, Lt | LessEqual, Eq | GreaterEqual, Gt | GreaterEqual, Eq => true
  | _, _ => false
  end.
(** The declaration of a type that exports these traits. *)
Definition all_exported : exports := Exports true true true true true.

(** Every type exports [Eq] and the language uses it. *)
Definition all_compared (lib : nat -> declaration) (l : lang) : Prop :=
  forall t, used l (d_kind (lib t)) /\ x_eq (d_exports (lib t)) = true.
(** A value of another type. *)
Definition strange (i : inst) (v : value) : Prop :=
  match v with Ours j => ty j <> ty i | Foreign _ => True end.
(** [Eq] and [Hash] are exported together. *)
Definition both_or_neither (d : declaration) : Prop := x_eq (d_exports d) = x_hash (d_exports d).
(** Enums with data in the bindings over JNI do not use [Eq] everywhere. *)
Definition not_over_jni (l : lang) (d : declaration) : Prop :=
  match l, d_kind d with KotlinJni, Data _ false _ => x_eq (d_exports d) = false | _, _ => True end.
(** An object is what it is. *)
Definition one_object (i j : inst) : Prop := ident i = ident j -> inside i = inside j.

(** Types whose values are compared by what they are made of when [Eq] is not exported. *)
Definition by_fields (l : lang) (k : kind) : Prop :=
  match l, k with
  | _, Object _ => False
  | Swift, Struct _ objects | Swift, Data _ _ objects => objects = false
  | _, Struct _ _ => True
  | _, Data _ err _ => err = false
  | Ruby, Flat ds => NoDup ds
  | _, Flat _ => True
  end.
(** Made of the same. *)
Definition alike (a b : content) : bool :=
  (variant a =? variant b) && (if list_eq_dec Z.eq_dec (fields a) (fields b) then true else false).
