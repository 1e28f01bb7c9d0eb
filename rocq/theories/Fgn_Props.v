(** C10, C11, C12, C48: the foreign side of the RustBuffer format.

    [same R E t v f] (Fgn_Spec.v) says that the Rust value [v] and the foreign
    value [f] are the same value of type [t]; [py_to], [py_from], ... say what this
    means for numbers, strings, instants and durations.  The languages are the
    functions [python], [kotlin], [ruby] of Fgn_Model.v. *)
From Verif Require Import Base Utf8 Wire_Model Wire_Spec Wire_Examples Fgn_Model Fgn_Spec
  Fgn_Proofs3 Fgn_Proofs4 Fgn_Proofs5 Fgn_Examples Fgn_Proofs.
Local Open Scope Z_scope.

(** ** C10: Python *)

(** Every Rust value whose instants, durations and handles Python can hold, whose
    options are not nested and whose map keys Python can hash, arrives in Python as
    the same value.  Partial: see the refutations below for the others. *)
Theorem C10_rust_to_python_partial : forall E h c v t bs,
  has_type E t v -> plain_options E t -> key_types E (py_keys E h) t -> leaves E py_leaf_of t v ->
  no_lost_instant v -> write E t v = Ok bs ->
  exists f, same (py_to E h) E t v f /\ foreign_reads (python E h c) E t (vdepth v) bs f.
Proof. exact rust_to_python. Qed.
Print Assumptions C10_rust_to_python_partial.

(** The counterpart is unique: any [f] that is the same value is what Python reads. *)
Theorem C10_python_reads_it_partial : forall E h c v t f bs rest d,
  same (py_to E h) E t v f -> has_type E t v -> no_lost_instant v ->
  write E t v = Ok bs -> (vdepth v <= d)%nat ->
  fread (python E h c) E d t (bs ++ rest) = Ok (f, rest).
Proof. exact py_reads. Qed.
Print Assumptions C10_python_reads_it_partial.

(** Whatever Python passes to Rust, Rust reads as the same value; it has the bytes
    Rust itself would write for it. *)
Theorem C10_python_to_rust_partial : forall E h d t f bs,
  fwrite (python E h true) E d t f = Ok bs -> fwf py_leaf f -> no_f32_keys E t ->
  exists v, has_type E t v /\ same py_from E t v f /\ write E t v = Ok bs /\
            (all_carried E v -> rust_reads E t bs v).
Proof. exact python_to_rust. Qed.
Print Assumptions C10_python_to_rust_partial.

(** The same for the values that Python callbacks return, which are not checked
    first; negative durations are excluded (see C11). *)
Theorem C10_python_returns_to_rust_partial : forall E h d t f bs,
  fwrite (python E h false) E d t f = Ok bs -> fwf py_leaf f -> no_neg_dur f -> no_f32_keys E t ->
  exists v, has_type E t v /\ same py_from E t v f /\ write E t v = Ok bs /\
            (all_carried E v -> rust_reads E t bs v).
Proof. exact python_returns_to_rust. Qed.
Print Assumptions C10_python_returns_to_rust_partial.

(** For a value that both sides represent exactly, Python writes the bytes Rust
    writes. *)
Theorem C10_python_writes_rust_bytes_partial : forall E h c v t f bs d,
  same py_exact E t v f -> has_type E t v -> no_flat v ->
  write E t v = Ok bs -> (vdepth v <= d)%nat -> fwrite (python E h c) E d t f = Ok bs.
Proof. exact py_writes_exact. Qed.
Print Assumptions C10_python_writes_rust_bytes_partial.

(** A flat error travels to Rust as its variant number, without the message. *)
Theorem C10_flat_error_tag : forall L E d n i cs bs k r,
  defs E n = Some (DFlat k r) -> fwrite L E (S d) (TNamed n) (FFlat n i cs) = Ok bs ->
  (i < k)%nat /\ Z.of_nat i < i32_max /\ bs = enc 4 (Z.of_nat i + 1).
Proof. exact fwrite_flat. Qed.
Print Assumptions C10_flat_error_tag.

(** [Some(None)] and [None] both arrive as [None]. *)
Theorem C10_nested_options_refuted : forall E h c t d rest,
  exists bs bs', write E (TOption (TOption t)) (VSome VNone) = Ok bs /\
    write E (TOption (TOption t)) VNone = Ok bs' /\ bs <> bs' /\
    fread (python E h c) E (S (S d)) (TOption (TOption t)) (bs ++ rest) = Ok (FNone, rest) /\
    fread (python E h c) E (S (S d)) (TOption (TOption t)) (bs' ++ rest) = Ok (FNone, rest).
Proof. exact (fun E h c t d rest => nested_options E t (python E h c) d rest eq_refl eq_refl). Qed.
Print Assumptions C10_nested_options_refuted.

(** A map keyed by a record that does not export [Hash] cannot be read. *)
Theorem C10_unhashable_refuted : exists E h t v bs,
  has_type E t v /\ write E t v = Ok bs /\
  forall d rest, fread (python E h true) E (S (S (S d))) t (bs ++ rest) = Err.
Proof. exact (ex_intro _ rk_env (ex_intro _ no_hash (ex_intro _ rk_ty (ex_intro _ rk_val
    match unhashable with conj T (ex_intro _ bs (conj W R)) => ex_intro _ bs (conj T (conj W R)) end)))). Qed.
Print Assumptions C10_unhashable_refuted.

(** Two keys half a microsecond apart arrive as one. *)
Theorem C10_colliding_keys_refuted : exists E h t k k' a b bs,
  has_type E t (VMap [(k, a); (k', b)]) /\ write E t (VMap [(k, a); (k', b)]) = Ok bs /\
  exists p, forall d rest, fread (python E h true) E (S (S d)) t (bs ++ rest) = Ok (FMap [p], rest).
Proof. exact colliding_keys'. Qed.
Print Assumptions C10_colliding_keys_refuted.

Example C10_example :
  has_type fx_env fx_ty fx_val /\ plain_options fx_env fx_ty /\
  key_types fx_env (py_keys fx_env no_hash) fx_ty /\ leaves fx_env py_leaf_of fx_ty fx_val /\
  no_lost_instant fx_val /\ write fx_env fx_ty fx_val = Ok fx_bytes /\
  fread (python fx_env no_hash true) fx_env 4 fx_ty fx_bytes = Ok (fx_py, []) /\
  fwf py_leaf fx_py /\ no_neg_dur fx_py /\ no_f32_keys fx_env fx_ty /\
  (exists bs, fwrite (python fx_env no_hash true) fx_env 4 fx_ty fx_py = Ok bs /\ (length bs = 58)%nat) /\
  same py_exact fx_env fx_ty fx_val_us fx_py /\ no_flat fx_val_us.
Proof.
  exact (conj fx_typed (conj fx_plain (conj fx_keys (conj fx_py_leaves (conj fx_instant
    (conj (proj1 fx_written) (conj fx_py_read (conj fx_py_wf (conj fx_py_no_neg
    (conj fx_no_f32_keys (conj fx_py_written (conj fx_py_same (proj2 fx_no_flat))))))))))))).
Qed.

(** ** C48: Kotlin and Ruby *)


(** Every Rust value that Kotlin can hold arrives there as the same value. *)
Theorem C48_rust_to_kotlin_partial : forall E v t bs,
  has_type E t v -> plain_options E t -> leaves E kt_leaf_of t v ->
  no_lost_instant v -> write E t v = Ok bs ->
  exists f, same kt_to E t v f /\ foreign_reads kotlin E t (vdepth v) bs f.
Proof. exact rust_to_kotlin. Qed.
Print Assumptions C48_rust_to_kotlin_partial.

(** ... and any [f] that is the same value is what Kotlin reads. *)
Theorem C48_kotlin_reads_it_partial : forall E v t f bs rest d,
  same kt_to E t v f -> has_type E t v -> no_lost_instant v ->
  write E t v = Ok bs -> (vdepth v <= d)%nat -> fread kotlin E d t (bs ++ rest) = Ok (f, rest).
Proof. exact kt_reads. Qed.
Print Assumptions C48_kotlin_reads_it_partial.

(** Whatever Kotlin writes, Rust reads as the same value. *)
Theorem C48_kotlin_to_rust_partial : forall E d t f bs,
  fwrite kotlin E d t f = Ok bs -> fwf kt_leaf f ->
  exists v, has_type E t v /\ same kt_from E t v f /\ write E t v = Ok bs /\
            (all_carried E v -> rust_reads E t bs v).
Proof. exact kotlin_to_rust. Qed.
Print Assumptions C48_kotlin_to_rust_partial.

(** Every Rust value that Ruby can hold arrives there as the same value. *)
Theorem C48_rust_to_ruby_partial : forall E v t bs,
  has_type E t v -> plain_options E t -> leaves E rb_leaf_of t v ->
  no_lost_instant v -> write E t v = Ok bs ->
  exists f, same rb_to E t v f /\ foreign_reads ruby E t (vdepth v) bs f.
Proof. exact rust_to_ruby. Qed.
Print Assumptions C48_rust_to_ruby_partial.

(** ... and any [f] that is the same value is what Ruby reads. *)
Theorem C48_ruby_reads_it_partial : forall E v t f bs rest d,
  same rb_to E t v f -> has_type E t v -> no_lost_instant v ->
  write E t v = Ok bs -> (vdepth v <= d)%nat -> fread ruby E d t (bs ++ rest) = Ok (f, rest).
Proof. exact rb_reads. Qed.
Print Assumptions C48_ruby_reads_it_partial.

(** Whatever Ruby writes, Rust reads as the same value. *)
Theorem C48_ruby_to_rust_partial : forall E d t f bs,
  fwrite ruby E d t f = Ok bs -> fwf rb_leaf f -> no_f32_keys E t ->
  exists v, has_type E t v /\ same rb_from E t v f /\ write E t v = Ok bs /\
            (all_carried E v -> rust_reads E t bs v).
Proof. exact ruby_to_rust. Qed.
Print Assumptions C48_ruby_to_rust_partial.

(** For a value that both sides represent exactly, Ruby writes the bytes Rust
    writes. *)
Theorem C48_ruby_writes_rust_bytes_partial : forall E v t f bs d,
  same rb_exact E t v f -> has_type E t v -> no_flat v ->
  write E t v = Ok bs -> (vdepth v <= d)%nat -> fwrite ruby E d t f = Ok bs.
Proof. exact rb_writes_exact. Qed.
Print Assumptions C48_ruby_writes_rust_bytes_partial.

(** Ruby reads every [u8] above 127 as a negative number. *)
Theorem C48_ruby_u8_refuted : forall E z d rest, 128 <= z < 256 ->
  exists bs, write E (TInt false W8) (VInt z) = Ok bs /\
             fread ruby E (S d) (TInt false W8) (bs ++ rest) = Ok (FInt (z - 256), rest).
Proof. exact ruby_u8. Qed.
Print Assumptions C48_ruby_u8_refuted.

(** Kotlin: [Some(None)] and [None] both arrive as null. *)
Theorem C48_kotlin_nested_options_refuted : forall E t d rest,
  exists bs bs', write E (TOption (TOption t)) (VSome VNone) = Ok bs /\
    write E (TOption (TOption t)) VNone = Ok bs' /\ bs <> bs' /\
    fread kotlin E (S (S d)) (TOption (TOption t)) (bs ++ rest) = Ok (FNone, rest) /\
    fread kotlin E (S (S d)) (TOption (TOption t)) (bs' ++ rest) = Ok (FNone, rest).
Proof. exact (fun E t d rest => nested_options E t kotlin d rest eq_refl eq_refl). Qed.
Print Assumptions C48_kotlin_nested_options_refuted.

(** Ruby: [Some(None)] and [None] both arrive as null. *)
Theorem C48_ruby_nested_options_refuted : forall E t d rest,
  exists bs bs', write E (TOption (TOption t)) (VSome VNone) = Ok bs /\
    write E (TOption (TOption t)) VNone = Ok bs' /\ bs <> bs' /\
    fread ruby E (S (S d)) (TOption (TOption t)) (bs ++ rest) = Ok (FNone, rest) /\
    fread ruby E (S (S d)) (TOption (TOption t)) (bs' ++ rest) = Ok (FNone, rest).
Proof. exact (fun E t d rest => nested_options E t ruby d rest eq_refl eq_refl). Qed.
Print Assumptions C48_ruby_nested_options_refuted.

Example C48_example :
  has_type fx_env fx_ty fx_val /\ plain_options fx_env fx_ty /\
  leaves fx_env kt_leaf_of fx_ty fx_val /\ leaves fx_env rb_leaf_of fx_ty fx_val /\
  no_lost_instant fx_val /\ write fx_env fx_ty fx_val = Ok fx_bytes /\
  fread kotlin fx_env 4 fx_ty fx_bytes = Ok (fx_kt, []) /\
  fread ruby fx_env 4 fx_ty fx_bytes = Ok (fx_rb, []) /\
  fwf kt_leaf fx_kt /\ fwf rb_leaf fx_rb /\ no_f32_keys fx_env fx_ty /\
  fwrite kotlin fx_env 4 fx_ty fx_kt = Ok fx_bytes /\ fwrite ruby fx_env 4 fx_ty fx_rb = Ok fx_bytes /\
  same rb_exact fx_env fx_ty fx_val fx_rb /\ no_flat fx_val.
Proof.
  exact (conj fx_typed (conj fx_plain (conj fx_kt_leaves (conj fx_rb_leaves (conj fx_instant
    (conj (proj1 fx_written) (conj fx_kt_read (conj fx_rb_read (conj fx_kt_wf (conj fx_rb_wf
    (conj fx_no_f32_keys (conj fx_kt_written (conj fx_rb_written (conj fx_rb_same (proj1 fx_no_flat))))))))))))))).
Qed.

(** ** C11: instants and durations

    Rust's instants and durations are counts of nanoseconds; Python's are counts
    of microseconds. *)


(** Python: an instant arrives rounded to the nearest microsecond, or is refused
    when [datetime] cannot hold it.  Partial: the second before 1970 is excluded. *)
Theorem C11_python_instant_from_rust_partial : forall E h c t d rest bs,
  ~ (-1000000000 < t < 0) -> write E TTimestamp (VTime t) = Ok bs ->
  exists x, nearest_us t x /\
  fread (python E h c) E (S d) TTimestamp (bs ++ rest) =
  if (py_time_min <=? x) && (x <=? py_time_max) then Ok (FTime x, rest) else Err.
Proof. exact py_instant_from_rust. Qed.
Print Assumptions C11_python_instant_from_rust_partial.

(** ... and the other way the instant is exact. *)
Theorem C11_python_instant_to_rust_partial : forall E h c d x,
  py_time_min <= x <= py_time_max -> ~ (-1000000 < x < 0) ->
  exists bs, fwrite (python E h c) E (S d) TTimestamp (FTime x) = Ok bs /\
             rust_reads E TTimestamp bs (VTime (1000 * x)).
Proof. exact py_instant_to_rust. Qed.
Print Assumptions C11_python_instant_to_rust_partial.

(** An instant inside the second before 1970 arrives mirrored, in both directions. *)
Theorem C11_python_instant_refuted : forall E h c d,
  (forall t rest, -1000000000 < t < 0 ->
   exists bs x, write E TTimestamp (VTime t) = Ok bs /\ nearest_us (- t) x /\
   fread (python E h c) E (S d) TTimestamp (bs ++ rest) = Ok (FTime x, rest)) /\
  (forall x, -1000000 < x < 0 ->
   exists bs, fwrite (python E h c) E (S d) TTimestamp (FTime x) = Ok bs /\
              rust_reads E TTimestamp bs (VTime (- (1000 * x)))).
Proof. exact (fun E h c d => conj (fun t rest => py_instant_lost E h c t d rest) (py_instant_to_rust_lost E h c d)). Qed.
Print Assumptions C11_python_instant_refuted.

(** Python: every duration arrives rounded to the nearest microsecond, or is
    refused when [timedelta] cannot hold it. *)
Theorem C11_python_duration_from_rust : forall E h c t d rest bs,
  0 <= t / 1000000000 < modulus 8 -> write E TDuration (VDur t) = Ok bs ->
  exists x, nearest_us t x /\
  fread (python E h c) E (S d) TDuration (bs ++ rest) =
  if x <=? py_delta_max then Ok (FDur x, rest) else Err.
Proof. exact py_duration_from_rust. Qed.
Print Assumptions C11_python_duration_from_rust.

(** ... and the other way the duration is exact. *)
Theorem C11_python_duration_to_rust : forall E h c d x,
  py_delta_min <= x <= py_delta_max -> 0 <= x ->
  exists bs, fwrite (python E h c) E (S d) TDuration (FDur x) = Ok bs /\
             rust_reads E TDuration bs (VDur (1000 * x)).
Proof. exact py_duration_to_rust. Qed.
Print Assumptions C11_python_duration_to_rust.

(** A negative duration is refused when it is passed to Rust. *)
Theorem C11_python_negative_duration : forall E h d x, x < 0 ->
  fwrite (python E h true) E (S d) TDuration (FDur x) = Err.
Proof. exact py_duration_negative. Qed.
Print Assumptions C11_python_negative_duration.

(** A negative duration returned by a callback becomes one of 2^64 seconds less
    its length. *)
Theorem C11_python_returned_duration_refuted : forall E h d x, py_delta_min <= x < 0 ->
  exists bs, fwrite (python E h false) E (S d) TDuration (FDur x) = Ok bs /\
             rust_reads E TDuration bs (VDur (1000 * x + modulus 8 * 1000000000)).
Proof. exact py_duration_returned_negative. Qed.
Print Assumptions C11_python_returned_duration_refuted.

(** Kotlin: an instant is exact, or refused when [Instant] cannot hold it. *)
Theorem C11_kotlin_instant_from_rust_partial : forall E t d rest bs,
  ~ (-1000000000 < t < 0) -> write E TTimestamp (VTime t) = Ok bs ->
  fread kotlin E (S d) TTimestamp (bs ++ rest) =
  if (kt_time_min <=? t) && (t <=? kt_time_max) then Ok (FTime t, rest) else Err.
Proof. exact kt_instant_from_rust. Qed.
Print Assumptions C11_kotlin_instant_from_rust_partial.

(** ... the other way. *)
Theorem C11_kotlin_instant_to_rust_partial : forall E d x,
  kt_time_min <= x <= kt_time_max -> ~ (-1000000000 < x < 0) ->
  exists bs, fwrite kotlin E (S d) TTimestamp (FTime x) = Ok bs /\
             rust_reads E TTimestamp bs (VTime x).
Proof. exact kt_instant_to_rust. Qed.
Print Assumptions C11_kotlin_instant_to_rust_partial.

(** ... mirrored inside the second before 1970. *)
Theorem C11_kotlin_instant_refuted : forall E d,
  (forall t rest, -1000000000 < t < 0 ->
   exists bs, write E TTimestamp (VTime t) = Ok bs /\
   fread kotlin E (S d) TTimestamp (bs ++ rest) = Ok (FTime (- t), rest)) /\
  (forall x, -1000000000 < x < 0 ->
   exists bs, fwrite kotlin E (S d) TTimestamp (FTime x) = Ok bs /\
              rust_reads E TTimestamp bs (VTime (- x))).
Proof. exact (fun E d => conj (fun t rest => kt_instant_lost E t d rest) (kt_instant_to_rust_lost E d)). Qed.
Print Assumptions C11_kotlin_instant_refuted.

(** Kotlin: a duration is exact, or refused when its seconds do not fit a Long. *)
Theorem C11_kotlin_duration_from_rust : forall E t d rest bs,
  0 <= t / 1000000000 < modulus 8 -> write E TDuration (VDur t) = Ok bs ->
  fread kotlin E (S d) TDuration (bs ++ rest) =
  if t / 1000000000 <=? i64_max then Ok (FDur t, rest) else Err.
Proof. exact kt_duration_from_rust. Qed.
Print Assumptions C11_kotlin_duration_from_rust.

(** ... the other way; a negative duration is refused. *)
Theorem C11_kotlin_duration_to_rust : forall E d x,
  (0 <= x -> x / 1000000000 <= i64_max ->
   exists bs, fwrite kotlin E (S d) TDuration (FDur x) = Ok bs /\ rust_reads E TDuration bs (VDur x)) /\
  (x < 0 -> fwrite kotlin E (S d) TDuration (FDur x) = Err).
Proof. exact (fun E d x => conj (kt_duration_to_rust E d x) (kt_duration_negative E d x)). Qed.
Print Assumptions C11_kotlin_duration_to_rust.

(** Ruby: an instant is exact. *)
Theorem C11_ruby_instant_from_rust_partial : forall E t d rest bs,
  ~ (-1000000000 < t < 0) -> write E TTimestamp (VTime t) = Ok bs ->
  fread ruby E (S d) TTimestamp (bs ++ rest) = Ok (FTime t, rest).
Proof. exact rb_instant_from_rust. Qed.
Print Assumptions C11_ruby_instant_from_rust_partial.

(** ... the other way. *)
Theorem C11_ruby_instant_to_rust_partial : forall E d x,
  Z.abs x / 1000000000 <= i64_max -> ~ (-1000000000 < x < 0) ->
  exists bs, fwrite ruby E (S d) TTimestamp (FTime x) = Ok bs /\
             rust_reads E TTimestamp bs (VTime x).
Proof. exact rb_instant_to_rust. Qed.
Print Assumptions C11_ruby_instant_to_rust_partial.

(** ... mirrored inside the second before 1970. *)
Theorem C11_ruby_instant_refuted : forall E d,
  (forall t rest, -1000000000 < t < 0 ->
   exists bs, write E TTimestamp (VTime t) = Ok bs /\
   fread ruby E (S d) TTimestamp (bs ++ rest) = Ok (FTime (- t), rest)) /\
  (forall x, -1000000000 < x < 0 ->
   exists bs, fwrite ruby E (S d) TTimestamp (FTime x) = Ok bs /\
              rust_reads E TTimestamp bs (VTime (- x))).
Proof. exact (fun E d => conj (fun t rest => rb_instant_lost E t d rest) (rb_instant_to_rust_lost E d)). Qed.
Print Assumptions C11_ruby_instant_refuted.

(** Ruby: a duration of less than 2^63 seconds is exact. *)
Theorem C11_ruby_duration_from_rust_partial : forall E t d rest bs,
  0 <= t / 1000000000 <= i64_max -> write E TDuration (VDur t) = Ok bs ->
  fread ruby E (S d) TDuration (bs ++ rest) = Ok (FDur t, rest).
Proof. exact rb_duration_from_rust. Qed.
Print Assumptions C11_ruby_duration_from_rust_partial.

(** ... a longer one arrives negative. *)
Theorem C11_ruby_duration_refuted : forall E t d rest, i64_max < t / 1000000000 < modulus 8 ->
  exists bs, write E TDuration (VDur t) = Ok bs /\
  fread ruby E (S d) TDuration (bs ++ rest) = Ok (FDur (t - modulus 8 * 1000000000), rest).
Proof. exact rb_duration_wraps. Qed.
Print Assumptions C11_ruby_duration_refuted.

(** ... the other way; a negative duration is refused. *)
Theorem C11_ruby_duration_to_rust : forall E d x,
  (0 <= x -> x / 1000000000 < modulus 8 ->
   exists bs, fwrite ruby E (S d) TDuration (FDur x) = Ok bs /\ rust_reads E TDuration bs (VDur x)) /\
  (x < 0 -> fwrite ruby E (S d) TDuration (FDur x) = Err).
Proof. exact (fun E d x => conj (rb_duration_to_rust E d x) (rb_duration_negative E d x)). Qed.
Print Assumptions C11_ruby_duration_to_rust.

Example C11_example :
  write ex_env TTimestamp (VTime (-1500000500)) = Ok (enc 8 (-1) ++ enc 4 500000500) /\
  fread (python ex_env no_hash true) ex_env 1 TTimestamp (enc 8 (-1) ++ enc 4 500000500) = Ok (FTime (-1500000), []) /\
  fread kotlin ex_env 1 TTimestamp (enc 8 (-1) ++ enc 4 500000500) = Ok (FTime (-1500000500), []) /\
  fread ruby ex_env 1 TTimestamp (enc 8 (-1) ++ enc 4 500000500) = Ok (FTime (-1500000500), []) /\
  fwrite ruby ex_env 1 TTimestamp (FTime (-1500000500)) = Ok (enc 8 (-1) ++ enc 4 500000500) /\
  fwrite (python ex_env no_hash true) ex_env 1 TDuration (FDur 1500000) = Ok (enc 8 1 ++ enc 4 500000000) /\
  (exists bs, write ex_env TDuration (VDur (9223372036854775808 * 1000000000)) = Ok bs /\
              fread ruby ex_env 1 TDuration bs = Ok (FDur (-9223372036854775808 * 1000000000), []) /\
              fread kotlin ex_env 1 TDuration bs = Err).
Proof. repeat (split; [vm_compute; reflexivity|]). exists (enc 8 (-9223372036854775808) ++ enc 4 0). repeat split; vm_compute; reflexivity. Qed.

(** ** C12: Kotlin's buffers *)


(** The size Kotlin computes is at least the number of bytes it then writes. *)
Theorem C12_size_suffices : forall E d t f bs,
  fwrite kotlin E d t f = Ok bs -> exists n, kalloc E d t f = Ok n /\ Z.of_nat (length bs) <= n.
Proof. exact kalloc_enough. Qed.
Print Assumptions C12_size_suffices.

(** Lowering a value never writes past the buffer it allocated. *)
Theorem C12_never_overruns : forall E d t f cap bs,
  klower E d t f = Ok (cap, bs) -> Z.of_nat (length bs) <= cap.
Proof. exact klower_bounded. Qed.
Print Assumptions C12_never_overruns.

(** ... and it succeeds when the size fits 64 bits. *)
Theorem C12_lowering_succeeds : forall E d t f bs n,
  fwrite kotlin E d t f = Ok bs -> kalloc E d t f = Ok n -> 0 <= n < modulus 8 ->
  klower E d t f = Ok (n, bs).
Proof. exact klower_ok. Qed.
Print Assumptions C12_lowering_succeeds.

(** The bytes are those that Rust writes for the same value.  Partial: a flat error
    (which [no_flat] excludes) is written without its message, see
    [C10_flat_error_tag]. *)
Theorem C12_rust_bytes_partial : forall E v t f bs d,
  same kt_from E t v f -> has_type E t v -> no_flat v ->
  write E t v = Ok bs -> (vdepth v <= d)%nat -> fwrite kotlin E d t f = Ok bs.
Proof. exact kt_writes_exact. Qed.
Print Assumptions C12_rust_bytes_partial.

Example C12_example :
  kalloc fx_env 4 fx_ty fx_kt = Ok 61 /\ fwrite kotlin fx_env 4 fx_ty fx_kt = Ok fx_bytes /\
  (length fx_bytes = 58)%nat /\ klower fx_env 4 fx_ty fx_kt = Ok (61, fx_bytes) /\
  write fx_env fx_ty fx_val = Ok fx_bytes /\ same kt_from fx_env fx_ty fx_val fx_kt /\ no_flat fx_val.
Proof.
  do 5 (split; [vm_compute; reflexivity|]). exact (conj fx_kt_same (proj1 fx_no_flat)).
Qed.

