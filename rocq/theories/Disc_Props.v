(** C36: the discriminants shown by the bindings are those rustc assigns. *)
From Verif Require Import Base Meta_Types Disc_Model Disc_Spec Disc_Proofs Disc_Examples.
Local Open Scope Z_scope.

(** Every enum rustc accepts has discriminants the metadata reader accepts. *)
Theorem C36_recorded : forall repr vs, accepted repr vs -> exists rs, Forall2 recorded vs rs.
Proof. exact all_recorded. Qed.
Print Assumptions C36_recorded.

(** Python: each variant has the discriminant rustc gives it, all have one type, the declared one if
    there is one, and that type can hold them all. *)
Theorem C36_python : forall repr vs rs,
  integer_repr repr -> accepted repr vs -> Forall2 recorded vs rs ->
  exists t lits, determine_discriminants repr rs = Ok (t, lits) /\
    map shown lits = map Some (rustc_discrs None vs) /\
    Forall (fun l => shown_type l = Some t) lits /\
    Forall (in_range t) (rustc_discrs None vs) /\
    (forall r, repr = Some r -> t = r).
Proof. exact pipeline_discriminants. Qed.
Print Assumptions C36_python.

(** Kotlin, Swift and Ruby: the same discriminants when all are below 2^63. *)
Theorem C36_component_interface_partial : forall repr vs rs index z,
  accepted repr vs -> Forall2 recorded vs rs ->
  (forall z, In z (rustc_discrs None vs) -> z < 2 ^ 63) ->
  nth_error (rustc_discrs None vs) index = Some z ->
  exists l, variant_discr rs index = Ok l /\ shown l = Some z.
Proof. exact ci_discriminants. Qed.
Print Assumptions C36_component_interface_partial.

(** Without that bound it fails: a variant without a value, after one of 2^63 - 1, of a
    [#[repr(u64)]] enum is shown with a negative discriminant. *)
Theorem C36_large_refuted : exists repr vs rs index z l,
  integer_repr repr /\ accepted repr vs /\ Forall2 recorded vs rs /\
  nth_error (rustc_discrs None vs) index = Some z /\
  variant_discr rs index = Ok l /\ shown l <> Some z.
Proof. exact large_shown. Qed.
Print Assumptions C36_large_refuted.
