From Verif Require Import Base Fser_Model Fser_Spec.
Local Open Scope Z_scope.

(** Memory full of rubbish. *)
Definition rubbish : list elt := repeat 0xDEADBEEFCAFEF00D 20.
Definition sample : list (fty * fval) :=
  [(FSigned W8, VInt (-1)); (FUnsigned W8, VInt 255); (FSigned W64, VInt (- 2 ^ 63)); (FUnit, VUnit);
   (FBool, VBool true); (FBool, VBool false); (FFloat, VBits 0x3F800000); (FHandle, VPtr 3);
   (FBuffer, VBuffer 16 5 0x7FFF00000000); (FBytes, VBytes (-1) 8); (FStatus, VStatus 1 8 4 64)].

Example sample_typed : typed sample /\ total (map fst sample) = 16%nat.
Proof.
  split; [|reflexivity].
  repeat (apply Forall_cons; [cbn; unfold unsigned, signed; repeat split; lia|]). apply Forall_nil.
Qed.

Example sample_read_back :
  bind (write_all sample rubbish) (read_all (map fst sample)) = Ok (map snd sample).
Proof. vm_compute. reflexivity. Qed.

Example sample_short : write_all sample (firstn 15 rubbish) = Panic.
Proof. vm_compute. reflexivity. Qed.

(** Only the low byte of the element is touched. *)
Example other_bits_kept :
  bind (write_all [(FSigned W8, VInt (-1))] rubbish) (fun b => Ok (hd 0 b)) = Ok 0xDEADBEEFCAFEF0FF.
Proof. vm_compute. reflexivity. Qed.

(** A status code that does not exist is an unexpected error. *)
Example unknown_code : read_all [FStatus] [9; 1; 2; 3] = Ok [VStatus 2 1 2 3].
Proof. vm_compute. reflexivity. Qed.

(** Calling a function that adds its arguments. *)
Definition add (vs : list fval) : fval * fval :=
  match vs with
  | [VInt a; VInt b] => (VInt (a + b), VStatus 0 0 0 0)
  | _ => (VInt 0, VStatus 2 0 0 0)
  end.
Example call_add :
  bind (write_all [(FUnsigned W32, VInt 40); (FSigned W16, VInt (-2))] rubbish) (fun args =>
  bind (buffer_fn [FUnsigned W32; FSigned W16] (FSigned W64) add args rubbish)
       (read_all [FSigned W64; FStatus])) = Ok [VInt 38; VStatus 0 0 0 0].
Proof. vm_compute. reflexivity. Qed.
