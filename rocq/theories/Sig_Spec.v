(** What the machine sees of a foreign function: C types.  A call is safe only if the caller's idea of
    the function's type is the callee's. *)
From Verif Require Import Base.

Inductive width := W8 | W16 | W32 | W64.

Inductive cty :=
| CInt (signed : bool) (w : width)
| CFloat | CDouble
| CData                                             (* an address of something not described *)
| CPtr (t : cty)                                    (* an address of a [t] *)
| CStruct (fields : list cty)                       (* passed by value, laid out in order *)
| CFn (args : list cty) (ret : option cty).         (* the address of a function *)

Definition cu8 := CInt false W8.    Definition ci8 := CInt true W8.
Definition cu16 := CInt false W16.  Definition ci16 := CInt true W16.
Definition cu32 := CInt false W32.  Definition ci32 := CInt true W32.
Definition cu64 := CInt false W64.  Definition ci64 := CInt true W64.

(** The JVM has signed integers only: the same bits, read as signed. *)
Fixpoint signless (t : cty) : cty :=
  match t with
  | CInt _ w => CInt true w
  | CPtr t => CPtr (signless t)
  | CStruct fs => CStruct (map signless fs)
  | CFn a r => CFn (map signless a) (option_map signless r)
  | t => t
  end.
(** A function's result comes back in a register: JNA may read more of it than the function fills,
    if the rest is thrown away. *)
Definition widened (t : cty) : cty :=
  match t with
  | CInt false W8 | CInt false W16 => CInt true W32
  | t => signless t
  end.
Definition jvm_fn (t : cty) : cty :=
  match t with
  | CFn a r => CFn (map signless a) (option_map widened r)
  | t => signless t
  end.

(** ruby-ffi mostly does not describe what is behind an address. *)
Fixpoint untyped (t : cty) : cty :=
  match t with
  | CPtr _ => CData
  | CStruct fs => CStruct (map untyped fs)
  | CFn a r => CFn (map untyped a) (option_map untyped r)
  | t => t
  end.
