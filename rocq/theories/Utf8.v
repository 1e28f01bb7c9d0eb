(** UTF-8, as checked by [String::from_utf8] (used by /repo
    uniffi_core/src/ffi_converter_impls.rs:161) and as produced by the foreign
    encoders ([str.encode("utf-8")], [Charsets.UTF_8.newEncoder()]). *)
From Verif Require Import Base.
Local Open Scope N_scope.

(** A Unicode scalar value: a code point that is not a surrogate. *)
Definition scalar (c : N) : Prop := c < 0xD800 \/ (0xE000 <= c /\ c <= 0x10FFFF).

Definition scalarb (c : N) : bool := (c <? 0xD800) || ((0xE000 <=? c) && (c <=? 0x10FFFF)).

(** Specification: the UTF-8 encoding of one scalar value (RFC 3629). *)
Definition utf8_enc1 (c : N) : bytes :=
  if c <? 0x80 then [n2b c]
  else if c <? 0x800 then [n2b (0xC0 + c / 0x40); n2b (0x80 + c mod 0x40)]
  else if c <? 0x10000 then
    [n2b (0xE0 + c / 0x1000); n2b (0x80 + (c / 0x40) mod 0x40); n2b (0x80 + c mod 0x40)]
  else
    [n2b (0xF0 + c / 0x40000); n2b (0x80 + (c / 0x1000) mod 0x40);
     n2b (0x80 + (c / 0x40) mod 0x40); n2b (0x80 + c mod 0x40)].

Definition utf8_enc (cs : list N) : bytes := flat_map utf8_enc1 cs.

Definition cont (b : byte) : bool := (0x80 <=? b2n b) && (b2n b <? 0xC0).

(** Decode the first scalar of a byte string, following the acceptance table of
    Rust's [core::str::validations::run_utf8_validation]. *)
Definition utf8_dec1 (bs : bytes) : option (N * bytes) :=
  match bs with
  | [] => None
  | b0 :: r0 =>
    let a := b2n b0 in
    if a <? 0x80 then Some (a, r0)
    else if (0xC2 <=? a) && (a <? 0xE0) then
      match r0 with
      | b1 :: r1 =>
        if cont b1 then Some ((a - 0xC0) * 0x40 + (b2n b1 - 0x80), r1) else None
      | _ => None
      end
    else if (0xE0 <=? a) && (a <? 0xF0) then
      match r0 with
      | b1 :: b2 :: r2 =>
        let ok1 := if a =? 0xE0 then (0xA0 <=? b2n b1) && (b2n b1 <? 0xC0)
                   else if a =? 0xED then (0x80 <=? b2n b1) && (b2n b1 <? 0xA0)
                   else cont b1 in
        if ok1 && cont b2
        then Some ((a - 0xE0) * 0x1000 + (b2n b1 - 0x80) * 0x40 + (b2n b2 - 0x80), r2)
        else None
      | _ => None
      end
    else if (0xF0 <=? a) && (a <? 0xF5) then
      match r0 with
      | b1 :: b2 :: b3 :: r3 =>
        let ok1 := if a =? 0xF0 then (0x90 <=? b2n b1) && (b2n b1 <? 0xC0)
                   else if a =? 0xF4 then (0x80 <=? b2n b1) && (b2n b1 <? 0x90)
                   else cont b1 in
        if ok1 && cont b2 && cont b3
        then Some ((a - 0xF0) * 0x40000 + (b2n b1 - 0x80) * 0x1000
                   + (b2n b2 - 0x80) * 0x40 + (b2n b3 - 0x80), r3)
        else None
      | _ => None
      end
    else None
  end.

(** Decode a whole byte string; [fuel] bounds the number of scalars. *)
Fixpoint utf8_dec_fuel (fuel : nat) (bs : bytes) : option (list N) :=
  match bs with
  | [] => Some []
  | _ =>
    match fuel with
    | O => None
    | S f =>
      match utf8_dec1 bs with
      | None => None
      | Some (c, r) =>
        match utf8_dec_fuel f r with
        | None => None
        | Some cs => Some (c :: cs)
        end
      end
    end
  end.

Definition utf8_dec (bs : bytes) : option (list N) := utf8_dec_fuel (length bs) bs.

(** [String::from_utf8(bs).is_ok()] *)
Definition utf8_valid (bs : bytes) : bool :=
  match utf8_dec bs with Some _ => true | None => false end.
