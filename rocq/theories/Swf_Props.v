(** C64: the Swift side of the RustBuffer format.

    [same R E t v s] (Swf_Spec.v) says that the Rust value [v] and the Swift value
    [s] are the same value of type [t]; the clocks [to_swift], [from_swift] and
    [exactly] say what this means for instants and durations.  [W : swift] is how
    Swift compares strings. *)
From Verif Require Import Base Utf8 Wire_Model Wire_Spec Fgn_Spec Fgn_Examples
  Swf_Model Swf_Spec Swf_Read Swf_Write Swf_Refute Swf_Examples.
Local Open Scope Z_scope.

(** Every Rust value whose keys Swift can tell apart arrives in Swift as the same
    value, nested options included.  Partial: see the refutations below for the
    others. *)
Theorem C64_rust_to_swift_partial : forall W E v t bs,
  has_type E t v -> plain_keys E t -> apart W v -> no_lost_instant v -> write E t v = Ok bs ->
  exists s, same to_swift E t v s /\ swift_reads W E t (vdepth v) bs s.
Proof. exact rust_to_swift. Qed.
Print Assumptions C64_rust_to_swift_partial.

(** Whatever Swift writes, Rust reads as the same value; it has the bytes Rust
    itself would write for it. *)
Theorem C64_swift_to_rust_partial : forall W E d t s bs,
  swrite E d t s = Ok bs -> held W s -> plain_keys E t ->
  exists v, has_type E t v /\ same from_swift E t v s /\ write E t v = Ok bs /\
            (all_carried E v -> rust_reads E t bs v).
Proof. exact swift_to_rust. Qed.
Print Assumptions C64_swift_to_rust_partial.

(** A value whose instants and durations are whole seconds arrives exactly, and
    Swift sends the same bytes back. *)
Theorem C64_round_trip_partial : forall W E v t bs,
  has_type E t v -> plain_keys E t -> apart W v -> no_flat v -> whole v -> write E t v = Ok bs ->
  exists s, same exactly E t v s /\ swift_reads W E t (vdepth v) bs s /\
            forall d, (vdepth v <= d)%nat -> swrite E d t s = Ok bs.
Proof. exact swift_round_trip. Qed.
Print Assumptions C64_round_trip_partial.

(** A buffer with bytes left over is refused. *)
Theorem C64_left_over : forall W E v t s bs b rest d,
  swift_reads W E t (vdepth v) bs s -> (vdepth v <= d)%nat ->
  slift W E d t bs = Ok s /\ slift W E d t (bs ++ b :: rest) = Err.
Proof. exact left_over. Qed.
Print Assumptions C64_left_over.

(** A flat error travels to Rust as its variant number, without the message. *)
Theorem C64_flat_error_tag : forall E d n i m bs k r,
  defs E n = Some (DFlat k r) -> swrite E (S d) (TNamed n) (SFlat i m) = Ok bs ->
  (i < k)%nat /\ Z.of_nat i < i32_max /\ bs = enc 4 (Z.of_nat i + 1).
Proof. exact flat_tag. Qed.
Print Assumptions C64_flat_error_tag.

(** A duration of 1.9 seconds comes back a nanosecond shorter. *)
Theorem C64_fraction_refuted : forall W E d rest,
  exists bs bs' s, write E TDuration (VDur 1900000000) = Ok bs /\
    sread W E (S d) TDuration (bs ++ rest) = Ok (s, rest) /\
    swrite E (S d) TDuration s = Ok bs' /\
    read E (S d) TDuration (bs' ++ rest) = Ok (VDur 1899999999, rest).
Proof. exact fraction. Qed.
Print Assumptions C64_fraction_refuted.

(** A duration above 2^63 seconds arrives, but sending it back stops the program. *)
Theorem C64_long_duration_refuted : forall W E d rest,
  exists bs s, write E TDuration (VDur (9223372036854777856 * 1000000000)) = Ok bs /\
    sread W E (S d) TDuration (bs ++ rest) = Ok (s, rest) /\
    swrite E (S d) TDuration s = Panic.
Proof. exact long_duration. Qed.
Print Assumptions C64_long_duration_refuted.

(** A map with two keys that Swift takes for equal strings, such as the composed
    and the decomposed form of a letter with an accent, arrives with one entry:
    the first key with the second value. *)
Theorem C64_equivalent_keys_refuted : forall W E d a b rest,
  utf8_valid a = true -> utf8_valid b = true ->
  Z.of_nat (length a) <= i32_max -> Z.of_nat (length b) <= i32_max -> a <> b ->
  canon W a = canon W b ->
  let t := TMap TString TBool in
  let v := VMap [(VStr a, VBool true); (VStr b, VBool false)] in
  has_type E t v /\
  exists bs, write E t v = Ok bs /\
    sread W E (S (S d)) t (bs ++ rest) = Ok (SDict [(SStr a, SBool false)], rest).
Proof. exact equivalent_keys. Qed.
Print Assumptions C64_equivalent_keys_refuted.

(** Two instants a nanosecond apart arrive as one key. *)
Theorem C64_close_keys_refuted : forall W E,
  let t := TMap TTimestamp TBool in
  let v := VMap [(VTime 1700000000000000000, VBool true); (VTime 1700000000000000001, VBool false)] in
  has_type E t v /\
  exists bs, write E t v = Ok bs /\
    exists k, forall d rest, sread W E (S (S d)) t (bs ++ rest) = Ok (SDict [(k, SBool false)], rest).
Proof. exact close_keys. Qed.
Print Assumptions C64_close_keys_refuted.

(** Half a second before 1970 arrives in Rust as half a second after. *)
Theorem C64_before_1970_refuted : exists x, double x /\ 2 * since1970 x = - one /\
  forall E d rest, exists bs, swrite E (S d) TTimestamp (SDate x) = Ok bs /\
    read E (S d) TTimestamp (bs ++ rest) = Ok (VTime 500000000, rest).
Proof.
  exact (ex_intro _ half_before
    (conj (proj1 half_before_date) (conj (proj2 half_before_date) before_1970))).
Qed.
Print Assumptions C64_before_1970_refuted.

(** A negative length stops a Swift program, where Rust reports an error. *)
Theorem C64_negative_length_refuted : forall W E d n rest, - 2 ^ 31 <= n < 0 ->
  sread W E (S d) TString (enc 4 n ++ rest) = Panic /\
  read E (S d) TString (enc 4 n ++ rest) = Err.
Proof. exact negative_length. Qed.
Print Assumptions C64_negative_length_refuted.

(** Bytes that are no bool for Rust are [true] for Swift. *)
Theorem C64_lax_bool_refuted : forall W E d b rest, - 128 <= b < 128 -> b <> 0 -> b <> 1 ->
  sread W E (S d) TBool (enc 1 b ++ rest) = Ok (SBool true, rest) /\
  read E (S d) TBool (enc 1 b ++ rest) = Err.
Proof. exact lax_bool. Qed.
Print Assumptions C64_lax_bool_refuted.

Example C64_example :
  has_type fx_env sx_ty sx1 /\ plain_keys fx_env sx_ty /\ apart sw sx1 /\ no_lost_instant sx1 /\
  write fx_env sx_ty sx1 = Ok (written sx1) /\
  sread sw fx_env 5 sx_ty (written sx1) = Ok (sx_swift, []) /\
  held sw sx_swift /\ (exists bs, swrite fx_env 5 sx_ty sx_swift = Ok bs /\ (length bs = 66)%nat) /\
  has_type fx_env sx_ty sx2 /\ apart sw sx2 /\ no_flat sx2 /\ whole sx2 /\
  write fx_env sx_ty sx2 = Ok (written sx2) /\
  canon sw composed = canon sw decomposed /\ composed <> decomposed.
Proof.
  exact (conj (proj1 sx_typed) (conj sx_keys (conj (sx_apart _ _) (conj sx_instant
    (conj (proj1 sx_written) (conj sx_read (conj sx_held (conj sx_back
    (conj (proj2 sx_typed) (conj (sx_apart _ _) (conj sx_no_flat (conj sx_whole
    (conj (proj2 (proj2 sx_written)) (conj (proj1 sx_equal) (proj1 (proj2 sx_equal)))))))))))))))).
Qed.
