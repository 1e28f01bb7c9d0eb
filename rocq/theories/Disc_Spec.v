(** What rustc does with discriminants. *)
From Verif Require Import Base Meta_Types Disc_Model.
Local Open Scope Z_scope.

(** A discriminant as written: nothing, or an optional minus sign and a number. *)
Inductive written := Nothing | Written (negated : bool) (magnitude : Z).

Definition value (negated : bool) (magnitude : Z) : Z := if negated then - magnitude else magnitude.

(** The value rustc assigns: the explicit one, or the previous one plus one, or zero. *)
Fixpoint rustc_discrs (previous : option Z) (vs : list written) : list Z :=
  match vs with
  | [] => []
  | v :: vs =>
      let d := match v with
               | Written n m => value n m
               | Nothing => match previous with Some p => p + 1 | None => 0 end
               end in
      d :: rustc_discrs (Some d) vs
  end.

(** The values of an integer type. *)
Definition in_range (t : ty) (z : Z) : Prop :=
  match t with
  | TU8 => 0 <= z < 2 ^ 8 | TU16 => 0 <= z < 2 ^ 16
  | TU32 => 0 <= z < 2 ^ 32 | TU64 => 0 <= z < 2 ^ 64
  | TI8 => - 2 ^ 7 <= z < 2 ^ 7 | TI16 => - 2 ^ 15 <= z < 2 ^ 15
  | TI32 => - 2 ^ 31 <= z < 2 ^ 31 | TI64 => - 2 ^ 63 <= z < 2 ^ 63
  | _ => False
  end.

Definition unsigned (t : option ty) : bool :=
  match t with Some (TU8 | TU16 | TU32 | TU64) => true | _ => false end.

(** No representation, or an integer type. *)
Definition integer_repr (repr : option ty) : Prop :=
  match repr with Some t => exists z, in_range t z | None => True end.

(** An enum rustc accepts, with [#[repr(t)]] or without (then its discriminants are [isize]s): every
    discriminant fits, no minus sign with an unsigned representation, magnitudes are not negative. *)
Definition accepted (repr : option ty) (vs : list written) : Prop :=
  (forall z, In z (rustc_discrs None vs) ->
     in_range (match repr with Some t => t | None => TI64 end) z) /\
  (forall n m, In (Written n m) vs -> 0 <= m /\ (unsigned repr = true -> n = false)).

(** The number a literal stands for. *)
Definition shown (l : literal) : option Z :=
  match l with LUInt z _ _ | LInt z _ _ => Some z | _ => None end.

(** Its type. *)
Definition shown_type (l : literal) : option ty :=
  match l with LUInt _ _ t | LInt _ _ t => Some t | _ => None end.

(** What the reader makes of what is written. *)
Definition recorded (v : written) (r : option literal) : Prop :=
  match v with
  | Nothing => r = None
  | Written n m => exists l, r = Some l /\ read_discr n m = Ok l
  end.
