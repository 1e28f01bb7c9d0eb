(** * C13, C16: buffers and borrowed bytes

    Read with [Buf_Spec]. *)

From Verif Require Import Base Buf_Model Buf_Spec Buf_Proofs Scaf_Model Scaf_Spec Scaf_Proofs.

(** Over every history, each operation has exactly the intended effect on the bytes and
    capacities of the buffers held, and malformed headers and descriptors are refused
    with an unexpected error.  Partial: sizes that do not fit [usize] are set aside,
    see [C13_alloc_size_refuted]. *)
Theorem C13_bytes_preserved_partial :
  forall w xs s rs, Forall (fits w) xs -> run w world0 xs = Some (s, rs) ->
    exists es, spec_run w es [] xs = Some (view s, rs).
Proof. exact refines. Qed.
Print Assumptions C13_bytes_preserved_partial.

(** A history only stops at an operation that the specification does not allow: no call
    unwinds and no buffer held is refused. *)
Theorem C13_never_stuck_partial :
  forall w xs, Forall (fits w) xs -> run w world0 xs = None ->
    exists pre x post es l rs, xs = pre ++ x :: post /\ spec_run w es [] pre = Some (l, rs) /\ forall e, spec w e l x = None.
Proof. exact runs_on. Qed.
Print Assumptions C13_never_stuck_partial.

(** At every point the live blocks are exactly those of the buffers held, every other
    block was freed exactly once, and lengths are within capacities. *)
Theorem C13_freed_exactly_once_partial :
  forall w xs s rs, Forall (fits w) xs -> run w world0 xs = Some (s, rs) -> sound s.
Proof. exact always_sound. Qed.
Print Assumptions C13_freed_exactly_once_partial.

(** Passing buffers as arguments of a call frees them once they are all lifted. *)
Theorem C13_arguments_freed_partial :
  forall V E w (reader : bytes -> lres V E) xs s rs bs rest names vs h1,
    Forall (fits w) xs -> run w world0 xs = Some (s, rs) -> held s = bs ++ rest -> length names = length bs ->
    lifts (map (fun nb => buf_arg w (fst nb) reader (snd nb)) (combine names bs)) (hp s) vs h1 ->
    sound (mkw h1 rest).
Proof. exact (@args_freed). Qed.
Print Assumptions C13_arguments_freed_partial.

(** But when an argument does not lift, the buffers of the arguments after it are never
    freed: the call returns an unexpected error and the second buffer is still live. *)
Theorem C13_failed_lift_leaks_refuted :
  forall w, exists s rs b1 b2, run w world0 [Lower [x01] 0; Lower [x02] 0] = Some (s, rs) /\ held s = [b1; b2] /\
    exists h' st' r, scaffold (fun _ => []) leak_fn (leak_args w b1 b2) fresh (hp s) = (h', Returned st' r) /\
    code st' = UnexpectedError /\ block (data b2) (blocks h') = Some [x02] /\ ~ sound (mkw h' [error_buf st']).
Proof. exact leak. Qed.
Print Assumptions C13_failed_lift_leaks_refuted.

(** With 32-bit addresses, asking for 2^32 + 5 bytes succeeds with a buffer of 5. *)
Theorem C13_alloc_size_refuted :
  exists s, run W32 world0 [Alloc (2 ^ 32 + 5)] = Some (s, [RBuffer]) /\ view s = [AB (repeat x00 5) 5].
Proof. exact alloc_truncates. Qed.
Print Assumptions C13_alloc_size_refuted.

(** A refused request to grow does not say whether the buffer was consumed: one that does
    not fit [usize] leaves it to the caller, one that overflows the capacity frees it,
    and both give the same status. *)
Theorem C13_failed_reserve_ambiguous_refuted :
  exists s1 s2,
    run W32 world0 [Lower [x01; x02] 0; Reserve 0 (2 ^ 32) 0] = Some (s1, [RBuffer; RRefused UnexpectedError]) /\
    run W32 world0 [Lower [x01; x02] 0; Reserve 0 (2 ^ 31) 0] = Some (s2, [RBuffer; RRefused UnexpectedError]) /\
    length (held s1) = 2 /\ length (held s2) = 1.
Proof. exact reserve_ambiguous. Qed.
Print Assumptions C13_failed_reserve_ambiguous_refuted.

(** A borrowed slice is seen as exactly the foreign bytes. *)
Theorem C16_bytes_seen :
  forall ty m d, good_slice d -> exists bs, as_slice ty m d = Done bs /\ zlen bs = flen d /\
    forall i, (Z.of_nat i < flen d)%Z -> nth_error bs i = Some (m (fdata d + Z.of_nat i)%Z).
Proof. exact slice_seen. Qed.
Print Assumptions C16_bytes_seen.

(** What Rust writes through a mutable slice lands there and nowhere else. *)
Theorem C16_mutations_land :
  forall A m d (f : bytes -> bytes * A) bs' a, good_slice d ->
    f (read_mem m (fdata d) (Z.to_nat (flen d))) = (bs', a) -> zlen bs' = flen d ->
    exists m', with_mut_slice m d f = (m', Done a) /\
      (forall i b, nth_error bs' i = Some b -> m' (fdata d + Z.of_nat i)%Z = b) /\
      (forall q, (q < fdata d \/ fdata d + flen d <= q)%Z -> m' q = m q).
Proof. exact (@slice_mutated). Qed.
Print Assumptions C16_mutations_land.

(** Malformed descriptors are refused, whatever the function would do, and memory is untouched. *)
Theorem C16_malformed_refused :
  forall ty m d, ~ good_slice d -> exists k, as_slice ty m d = Panics (Plain k).
Proof. exact slice_bad. Qed.
Print Assumptions C16_malformed_refused.

Theorem C16_malformed_mutable_refused :
  forall A m d (f : bytes -> bytes * A), ~ good_slice d -> exists k, with_mut_slice m d f = (m, Panics (Plain k)).
Proof. exact (@slice_refused). Qed.
Print Assumptions C16_malformed_mutable_refused.

(** In a call, this is an unexpected error with a message; the function [g] has no say. *)
Theorem C16_malformed_reported :
  forall E R (debug : E -> bytes) m name (f : fn fbytes E R) g d st h,
    body f = slice_body m g -> ~ good_slice d ->
    exists msg, msg <> [] /\ reports f (scaffold debug f [slice_arg name d] st h) (Unexpected msg).
Proof. exact (@slice_arg_refused). Qed.
Print Assumptions C16_malformed_reported.
