(** * Histories of buffers that meet the hypotheses of the theorems *)

From Verif Require Import Base Buf_Model Buf_Spec.

(** Allocate, fill, grow (the growth gives 3 spare bytes), write into the spare room,
    hand a second buffer over, be refused for a malformed header and for a negative
    length, lift the first buffer, free what is left. *)
Definition history : list op :=
  [Alloc 2; Write 0 0 [x0a; x0b]; Reserve 0 1 2; Write 0 2 [x0c; x0d]; Lower [x01] 1; Empty;
   Bogus BFree (RB 1 2 16); FromBytes (fun _ => x07) (FB (-1) 100); FromBytes (fun q => n2b (Z.to_N q)) (FB 3 100);
   Lift 0; Free 0; Free 0].

Example history_runs : Forall (fits W64) history /\
  exists s, run W64 world0 history = Some (s, [RBuffer; RUnit; RBuffer; RUnit; RBuffer; RBuffer; RRefused UnexpectedError;
     RRefused UnexpectedError; RBuffer; RBytes [x0a; x0b; x0c; x0d]; RUnit; RUnit]) /\
  length (held s) = 3 /\ nth_error (view s) 2 = Some (AB [x64; x65; x66] 3).
Proof. split; [repeat constructor|]. eexists. split; [vm_compute; reflexivity|]. vm_compute. auto. Qed.

(** A history that stops: the foreign code frees a buffer it does not have. *)
Example bad_history : run W64 world0 [Empty; Free 0; Free 0] = None.
Proof. vm_compute. reflexivity. Qed.

(** Reversing a borrowed slice in place. *)
Example slice_example : good_slice (FB 3 100) /\
  zlen (rev (read_mem (fun q => n2b (Z.to_N q)) 100 3)) = 3%Z /\
  (let (m', r) := with_mut_slice (fun q => n2b (Z.to_N q)) (FB 3 100) (fun bs => (rev bs, length bs)) in
   (m' 99%Z, m' 100%Z, m' 101%Z, m' 102%Z, m' 103%Z, r) = (x63, x66, x65, x64, x67, Done 3)).
Proof. split; [split; cbn; lia|]. vm_compute. auto. Qed.

Example bad_slices : ~ good_slice (FB (-1) 100) /\ ~ good_slice (FB 1 0).
Proof. split; intros [A B]; cbn in *; try lia. Qed.
