(** Enum discriminants shown by the bindings: the pipeline computes them in
    uniffi_bindgen/src/pipeline/general/enums.rs, the component interface in
    uniffi_bindgen/src/interface/enum_.rs. *)
From Verif Require Import Base Meta_Types.
Local Open Scope Z_scope.

(** ** What the macros record *)

(** uniffi_macros/src/enum_.rs l.303-351 [variant_value] followed by uniffi_meta/src/reader.rs
    l.579-630 [read_literal] at type [UInt64]: an explicit discriminant is a literal with or without
    a minus sign; with one it is read as an [i64], without as a [u64]; the reader refuses what does
    not fit. *)
Definition read_discr (negated : bool) (magnitude : Z) : res literal :=
  if negated then
    if magnitude <=? 2 ^ 63 then Ok (LInt (- magnitude) Decimal_ TI64) else Err
  else
    if magnitude <? 2 ^ 64 then Ok (LUInt magnitude Decimal_ TU64) else Err.

(** ** The pipeline: Python *)

(** enums.rs l.65-77: whether the representation is signed; [Err] for other types. *)
Definition repr_signed (discr_type : option ty) : res bool :=
  match discr_type with
  | Some (TU8 | TU16 | TU32 | TU64) => Ok false
  | Some (TI8 | TI16 | TI32 | TI64) => Ok true
  | Some _ => Err
  | None => Ok true
  end.

(** enums.rs l.86-108: the literal for one variant.  [val + 1] is checked in debug builds: an overflow
    is a [Panic]. *)
Definition next_discr (signed : bool) (last : option literal) (discr : option literal)
  : res literal :=
  match discr with
  | Some lit => Ok lit
  | None =>
      match last with
      | None => Ok (if signed then LInt 0 Decimal_ TU8 else LUInt 0 Decimal_ TU8)
      | Some (LUInt v _ _) =>
          if v + 1 <? 2 ^ 64 then Ok (LUInt (v + 1) Decimal_ TU8) else Panic
      | Some (LInt v _ _) =>
          if v + 1 <? 2 ^ 63 then Ok (LInt (v + 1) Decimal_ TU8) else Panic
      | Some _ => Err
      end
  end.

(** enums.rs l.84-123: the loop, with the largest and smallest value seen.  A literal that is not an
    integer is [unreachable!]. *)
Fixpoint discr_loop (signed : bool) (variants : list (option literal)) (last : option literal)
  (max_value min_value : Z) : res (list literal * Z * Z) :=
  match variants with
  | [] => Ok ([], max_value, min_value)
  | v :: variants =>
      bind (next_discr signed last v) (fun discr =>
      bind (match discr with
            | LUInt v _ _ => Ok (Z.max max_value v, min_value)
            | LInt v _ _ =>
                if 0 <=? v then Ok (Z.max max_value v, min_value)
                else Ok (max_value, Z.min min_value v)
            | _ => Panic
            end) (fun m =>
      bind (discr_loop signed variants (Some discr) (fst m) (snd m)) (fun r =>
      Ok (discr :: fst (fst r), snd (fst r), snd r))))
  end.

(** enums.rs l.126-142. *)
Definition choose_type (discr_type : option ty) (max_value min_value : Z) : res ty :=
  match discr_type with
  | Some t => Ok t
  | None =>
      if (- 2 ^ 7 <=? min_value) && (max_value <=? 2 ^ 7 - 1) then Ok TI8
      else if (- 2 ^ 15 <=? min_value) && (max_value <=? 2 ^ 15 - 1) then Ok TI16
      else if (- 2 ^ 31 <=? min_value) && (max_value <=? 2 ^ 31 - 1) then Ok TI32
      else if max_value <=? 2 ^ 63 - 1 then Ok TI64
      else Err
  end.

(** enums.rs l.143-150. *)
Definition set_type (t : ty) (l : literal) : literal :=
  match l with
  | LUInt v r _ => LUInt v r t
  | LInt v r _ => LInt v r t
  | l => l
  end.

(** enums.rs l.60-156 [determine_discriminants]. *)
Definition determine_discriminants (discr_type : option ty) (variants : list (option literal))
  : res (ty * list literal) :=
  bind (repr_signed discr_type) (fun signed =>
  bind (discr_loop signed variants None 0 0) (fun r =>
  let '(lits, max_value, min_value) := r in
  bind (choose_type discr_type max_value min_value) (fun t =>
  Ok (t, map (set_type t) lits)))).

(** ** The component interface: Kotlin, Swift, Ruby *)

(** [v as u64] and [v as i64]. *)
Definition as_u64 (z : Z) : Z := z mod 2 ^ 64.
Definition as_i64 (z : Z) : Z := let u := z mod 2 ^ 64 in if u <? 2 ^ 63 then u else u - 2 ^ 64.

(** interface/enum_.rs l.233-254 [variant_discr_iter]: [next] is a [u64] and wraps. *)
Fixpoint variant_discrs (next : Z) (variants : list (option literal)) : res (list literal) :=
  match variants with
  | [] => Ok []
  | v :: variants =>
      bind (match v with
            | None =>
                Ok (next, if as_i64 next <? 0 then LInt (as_i64 next) Decimal_ TI64
                          else LUInt next Decimal_ TU64)
            | Some (LUInt v _ _) => Ok (v, LUInt v Decimal_ TU64)
            | Some (LInt v _ _) => Ok (as_u64 v, LInt v Decimal_ TI64)
            | Some _ => Err
            end) (fun p =>
      bind (variant_discrs (as_u64 (fst p + 1)) variants) (fun ls => Ok (snd p :: ls)))
  end.

(** interface/enum_.rs l.221-231 [variant_discr]. *)
Definition variant_discr (variants : list (option literal)) (index : nat) : res literal :=
  bind (variant_discrs 0 variants) (fun ls =>
  match nth_error ls index with Some l => Ok l | None => Err end).
