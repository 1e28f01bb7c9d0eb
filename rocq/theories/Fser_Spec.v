(** The values of FFI types. *)
From Verif Require Import Base Fser_Model.
Local Open Scope Z_scope.

Definition unsigned (w z : Z) : Prop := 0 <= z < 2 ^ w.
Definition signed (w z : Z) : Prop := - 2 ^ (w - 1) <= z < 2 ^ (w - 1).

Definition has_type (v : fval) (t : fty) : Prop :=
  match t, v with
  | FUnsigned W8, VInt z => unsigned 8 z
  | FUnsigned W16, VInt z => unsigned 16 z
  | FUnsigned W32, VInt z => unsigned 32 z
  | FUnsigned W64, VInt z => unsigned 64 z
  | FSigned W8, VInt z => signed 8 z
  | FSigned W16, VInt z => signed 16 z
  | FSigned W32, VInt z => signed 32 z
  | FSigned W64, VInt z => signed 64 z
  | FFloat, VBits z => unsigned 32 z
  | FDouble, VBits z => unsigned 64 z
  | FBool, VBool _ => True
  | FUnit, VUnit => True
  | FPtr, VPtr z | FHandle, VPtr z => unsigned 64 z
  | FBuffer, VBuffer c l d => unsigned 64 c /\ unsigned 64 l /\ unsigned 64 d
  | FBytes, VBytes l d => signed 32 l /\ unsigned 64 d
  | FStatus, VStatus code c l d =>
      (code = 0 \/ code = 1 \/ code = 2 \/ code = 3) /\ unsigned 64 c /\ unsigned 64 l /\ unsigned 64 d
  | _, _ => False
  end.

(** How many elements values of these types take. *)
Definition elements (t : fty) : nat :=
  match t with FUnit => 0 | FBuffer => 3 | FBytes => 2 | FStatus => 4 | _ => 1 end.
Definition total (ts : list fty) : nat := list_sum (map elements ts).

(** Every value has the type it is paired with. *)
Definition typed (tvs : list (fty * fval)) : Prop := Forall (fun tv => has_type (snd tv) (fst tv)) tvs.
