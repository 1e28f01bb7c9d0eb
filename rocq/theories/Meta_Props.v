(** The metadata properties (C27-C32).  Definitions used in the statements: [Meta_Model] (writer
    [write], buffer [exec], reader [read], [calc_checksum]) and [Meta_Spec]. *)
From Verif Require Import Base Meta_Types Meta_Model Meta_Spec Meta_Proofs Meta_Proofs2 Meta_Proofs3
  Meta_Examples Meta_Refute.
Open Scope Z_scope.

(** C27: whatever item is recorded (the build succeeds with bytes [b]), reading those bytes gives back
    that item.  [d]: the stack allows types as deep as the item's.  [omp]: the module of the object a
    constructor returns. *)
Theorem C27_read_back d omp m b :
  recordable d m -> utf8 omp -> write omp m = Some b ->
  exists m', read d b = Ok (m', []) /\ no_checksum m' = no_checksum m.
Proof. exact (read_back d omp m b). Qed.
Print Assumptions C27_read_back.

(** C27: [recordable] asks for defaults of the argument's type.  The macros do not: a function with a
    string as the default of an integer argument is recorded and cannot be read. *)
Theorem C27_any_default_refuted :
  exists f b, write [] (MFunc f) = Some b /\ forall d m r, read d b <> Ok (m, r).
Proof. exact unreadable_default. Qed.
Print Assumptions C27_any_default_refuted.

(** C28: an item's bytes are self-delimiting: whatever follows them is left unread and does not
    matter. *)
Theorem C28_trailing_bytes_ignored d omp m b :
  recordable d m -> utf8 omp -> write omp m = Some b ->
  exists m', no_checksum m' = no_checksum m /\ forall rest, read d (b ++ rest) = Ok (m', rest).
Proof. exact (trailing d omp m b). Qed.
Print Assumptions C28_trailing_bytes_ignored.

(** C28, for any data at all that the reader accepts: the result is determined by the bytes it
    consumed. *)
Theorem C28_only_consumed_bytes_matter d data m rest :
  read d data = Ok (m, rest) ->
  exists used, data = used ++ rest /\ forall other, read d (used ++ other) = Ok (m, other).
Proof. exact (read_good d data m rest). Qed.
Print Assumptions C28_only_consumed_bytes_matter.

(** C29, the full property: reading any data gives an item or an error.  It fails: cut-off data makes
    the reader panic. *)
Theorem C29_never_panics_refuted : exists d data, (length data < d)%nat /\ read d data = Panic.
Proof. exact never_panics_refuted. Qed.
Print Assumptions C29_never_panics_refuted.

(** C29, the other failure: for every stack there is data that overflows it. *)
Theorem C29_never_overflows_refuted : forall d, exists data, read d data = Deep.
Proof. exact never_overflows_refuted. Qed.
Print Assumptions C29_never_overflows_refuted.

(** C29, what does hold: if 65535 zero bytes follow the data (a library file goes on after the
    metadata), and the stack allows as many frames as there are bytes, any data gives an item or an
    error. *)
Theorem C29_padded_data_partial d data n :
  65535 <= Z.of_nat n -> (length data + n < d)%nat ->
  read d (data ++ repeat x00 n) = Err \/ exists m rest, read d (data ++ repeat x00 n) = Ok (m, rest).
Proof. exact (padded_total d data n). Qed.
Print Assumptions C29_padded_data_partial.

(** C29: an item that was cut off anywhere is never taken for an item. *)
Theorem C29_truncated_never_accepted d omp m b cut missing :
  recordable d m -> utf8 omp -> write omp m = Some b -> b = cut ++ missing -> missing <> [] ->
  forall m' rest, read d cut <> Ok (m', rest).
Proof. exact (truncated d omp m b cut missing). Qed.
Print Assumptions C29_truncated_never_accepted.

(** C30: a chain of calls produces a buffer exactly when every part can be represented and the total
    is at most 32768 bytes, and the buffer then is the parts, complete and in order; otherwise the
    build stops. *)
Theorem C30_all_parts_or_no_build cs b :
  Forall typed_call cs ->
  exec cs = Some b <-> exists ps, Forall2 part cs ps /\ b = concat ps /\ Z.of_nat (length b) <= 32768.
Proof. exact (parts_exec cs b). Qed.
Print Assumptions C30_all_parts_or_no_build.

(** C30: a string of 256 bytes or more is never recorded. *)
Theorem C30_long_names_stop_the_build cs s :
  In (CStr s) cs -> 256 <= Z.of_nat (length s) -> exec cs = None.
Proof. exact (long_name cs s). Qed.
Print Assumptions C30_long_names_stop_the_build.

(** C31: the checksum compiled into the library for an item equals the one the bindings compute from
    the metadata in that library, whatever follows it there. *)
Theorem C31_checksums_agree d omp m b rest :
  recordable d m -> utf8 omp -> has_checksum m -> write omp m = Some b ->
  exists m', read d (b ++ rest) = Ok (m', rest) /\
             item_checksum m' = scaffolding_checksum omp m.
Proof. exact (checksums_agree d omp m b rest). Qed.
Print Assumptions C31_checksums_agree.

(** C31, second half: editing a docstring does not change the checksum.  It fails for items recorded
    by the macros. *)
Theorem C31_docstring_refuted :
  exists d f doc doc', recordable d (MFunc (set_doc doc f)) /\ recordable d (MFunc (set_doc doc' f)) /\
    exists c c', scaffolding_checksum [] (MFunc (set_doc doc f)) = Some c /\
                 scaffolding_checksum [] (MFunc (set_doc doc' f)) = Some c' /\ c <> c'.
Proof. exact docstring_refuted. Qed.
Print Assumptions C31_docstring_refuted.

(** C32: two different items never have the same bytes, and the bytes of one are never the beginning
    of the bytes of the other. *)
Theorem C32_different_items_different_bytes d omp m b omp' m' b' r r' :
  recordable d m -> utf8 omp -> write omp m = Some b ->
  recordable d m' -> utf8 omp' -> write omp' m' = Some b' ->
  no_checksum m <> no_checksum m' -> b ++ r <> b' ++ r'.
Proof. exact (different_bytes d omp m b omp' m' b' r r'). Qed.
Print Assumptions C32_different_items_different_bytes.
