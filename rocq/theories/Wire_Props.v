(** Properties C01-C09: the RustBuffer serialization format. *)
From Coq Require Import Sorting.Permutation.
From Verif Require Import Base Utf8 Wire_Model Wire_Spec Wire_Proofs Wire_Proofs2 Wire_Proofs3
  Wire_Proofs4 Wire_Proofs5 Wire_Examples.
Local Open Scope Z_scope.

(** ** C01: what is written is read back, whatever follows it. *)
Theorem C01_wire_roundtrip : forall E t v bs rest d,
  has_type E t v -> all_carried E v -> write E t v = Ok bs -> (vdepth v <= d)%nat ->
  read E d t (bs ++ rest) = Ok (v, rest).
Proof. exact (fun E t v bs rest d => read_write E v t bs rest d). Qed.
Print Assumptions C01_wire_roundtrip.

Theorem C01_buffer_roundtrip : forall E t v bs,
  has_type E t v -> all_carried E v -> lower_buffer E t v = Ok bs ->
  lift_buffer E (vdepth v) t bs = Ok v.
Proof. exact buffer_roundtrip. Qed.
Print Assumptions C01_buffer_roundtrip.

(** The writer accepts every typed value except those with a part that is too
    long for its length prefix or an instant too far away. *)
Theorem C01_writer_accepts : forall E t v,
  has_type E t v -> (forall u, In u (subvals v) -> ~ unwritable u) ->
  exists bs, write E t v = Ok bs.
Proof. exact writer_accepts. Qed.
Print Assumptions C01_writer_accepts.

Example C01_example :
  has_type ex_env ex_ty ex_val /\ all_carried ex_env ex_val /\
  write ex_env ex_ty ex_val = Ok ex_bytes /\ length ex_bytes = 46%nat /\
  read ex_env (vdepth ex_val) ex_ty (ex_bytes ++ [x2a]) = Ok (ex_val, [x2a]).
Proof.
  split; [exact ex_val_typed|]. split; [exact ex_val_carried|]. vm_compute. auto.
Qed.

Example C01_example_recursive :
  has_type ex_env (TNamed "Node") (ex_list 3) /\ all_carried ex_env (ex_list 3) /\
  match write ex_env (TNamed "Node") (ex_list 3) with
  | Ok bs => lift_buffer ex_env (vdepth (ex_list 3)) (TNamed "Node") bs = Ok (ex_list 3)
  | _ => False
  end.
Proof.
  split; [apply ex_list_typed; reflexivity|]. split; [apply ex_list_carried|]. vm_compute. reflexivity.
Qed.

(** ** C02: reading arbitrary bytes.  The property holds for types from which no
    Timestamp, Duration, flat error or panicking user-written lift is reachable;
    the theorems below show exactly how it fails for those. *)
Theorem C02_hostile_no_panic_partial : forall E t,
  (forall u, uses E t u ->
     u <> TTimestamp /\ u <> TDuration /\
     forall n, u = TNamed n ->
       (forall k r, defs E n <> Some (DFlat k r)) /\
       (forall b v, defs E n = Some (DCustom b) -> clift E n v <> Panic)) ->
  forall d bs, read E d t bs <> Panic.
Proof. exact (fun E t H d bs => read_nopanic E d t H bs). Qed.
Print Assumptions C02_hostile_no_panic_partial.

Example C02_example : panic_free ex_env (TNamed "Node").
Proof. exact ex_node_panic_free. Qed.

(** Non-recursive types need only a fixed depth of stack. *)
Theorem C02_bounded_stack : forall E r t d,
  ranked E r -> (forall n v, clift E n v <> Deep) -> (tdepth r t <= d)%nat ->
  forall bs, read E d t bs <> Deep.
Proof. exact (fun E r t d RK CL H bs => read_nodeep E r d RK CL t H bs). Qed.
Print Assumptions C02_bounded_stack.

(** ... but for a recursive type, a hostile buffer of 9 bytes per level exhausts
    any stack. *)
Theorem C02_recursive_stack_refuted : forall d,
  exists bs, (length bs = 9 * d)%nat /\ read ex_env d (TNamed "Node") bs = Deep.
Proof. exact node_stack_exhausted. Qed.
Print Assumptions C02_recursive_stack_refuted.

(** Whatever the reader returns is a value of the type that was asked for. *)
Theorem C02_hostile_typed : forall E,
  lifts_typed E -> (forall n i, utf8_valid (display E n i) = true) ->
  forall d t bs v r, read E d t bs = Ok (v, r) -> has_type E t v.
Proof. exact (fun E H D d t bs v r => read_typed E d H D t bs v r). Qed.
Print Assumptions C02_hostile_typed.

Theorem C02_duration_panics_exactly : forall E d bs,
  read E (S d) TDuration bs = Panic <->
  exists s n r, bs = enc 8 s ++ enc 4 n ++ r /\ 0 <= s < modulus 8 /\ 0 <= n < modulus 4 /\
                modulus 8 <= s + n / 1000000000.
Proof. exact duration_panics. Qed.
Print Assumptions C02_duration_panics_exactly.

Theorem C02_timestamp_panics_exactly : forall E d bs,
  read E (S d) TTimestamp bs = Panic <->
  exists s n r, bs = enc 8 s ++ enc 4 n ++ r /\ - half 8 <= s < half 8 /\ 0 <= n < modulus 4 /\
     let t := if 0 <=? s then s * 1000000000 + n else s * 1000000000 - n in
     ~ (- half 8 <= t / 1000000000 < half 8).
Proof. exact timestamp_panics. Qed.
Print Assumptions C02_timestamp_panics_exactly.

Theorem C02_hostile_no_panic_refuted :
  (exists bs, forall E d, read E (S d) TDuration bs = Panic) /\
  (exists bs, forall E d, read E (S d) TTimestamp bs = Panic) /\
  (exists E n bs, forall d, read E (S d) (TNamed n) bs = Panic).
Proof. exact hostile_panics. Qed.
Print Assumptions C02_hostile_no_panic_refuted.

(** ** C03: every strict prefix of a serialized value is rejected. *)
Theorem C03_truncated_rejected : forall E t v bs p x d,
  has_type E t v -> all_carried E v -> write E t v = Ok bs ->
  bs = p ++ x -> x <> [] ->
  forall v', lift_buffer E d t p <> Ok v'.
Proof. exact truncated_rejected. Qed.
Print Assumptions C03_truncated_rejected.

(** ... and with a conversion error, not a panic, if no flat error type occurs. *)
Theorem C03_truncated_is_error : forall E t v bs p x d,
  has_type E t v -> all_carried E v -> write E t v = Ok bs ->
  (forall n k r, uses E t (TNamed n) -> defs E n <> Some (DFlat k r)) ->
  bs = p ++ x -> x <> [] -> (vdepth v <= d)%nat ->
  lift_buffer E d t p = Err.
Proof. exact truncated_is_error. Qed.
Print Assumptions C03_truncated_is_error.

Example C03_example :
  ex_bytes = firstn 30 ex_bytes ++ skipn 30 ex_bytes /\ skipn 30 ex_bytes <> [] /\
  lift_buffer ex_env 10 ex_ty (firstn 30 ex_bytes) = Err.
Proof. vm_compute. split; [reflexivity|]. split; [discriminate|reflexivity]. Qed.

(** ** C04: trailing bytes are rejected. *)
Theorem C04_junk_rejected : forall E d t bs v junk,
  lift_buffer E d t bs = Ok v -> junk <> [] -> lift_buffer E d t (bs ++ junk) = Err.
Proof. exact junk_err. Qed.
Print Assumptions C04_junk_rejected.

(** For types without maps, sets, times, custom types and flat errors a buffer is
    accepted exactly when it is what the writer produces for the value. *)
Theorem C04_accepts_exactly : forall E t,
  (forall u, uses E t u ->
     match u with
     | TTimestamp | TDuration | TMap _ _ | TSet _ => False
     | TNamed n =>
       match defs E n with Some (DFlat _ _) | Some (DCustom _) => False | _ => True end
     | _ => True
     end) ->
  forall bs v, (exists d, lift_buffer E d t bs = Ok v) <-> (has_type E t v /\ lower_buffer E t v = Ok bs).
Proof. exact accepts_exactly. Qed.
Print Assumptions C04_accepts_exactly.

Example C04_example : plain ex_env (TNamed "Shape") /\
  lift_buffer ex_env 5 (TNamed "Shape") [x00; x00; x00; x03] = Ok (VEnum 2 []) /\
  lift_buffer ex_env 5 (TNamed "Shape") [x00; x00; x00; x03; x00] = Err.
Proof. split; [exact ex_shape_plain|]. vm_compute. auto. Qed.

(** ** C05: different values have different encodings, also when concatenated. *)
Theorem C05_prefix_free : forall E t v1 v2 b1 b2 r1 r2,
  has_type E t v1 -> has_type E t v2 -> all_carried E v1 -> all_carried E v2 ->
  write E t v1 = Ok b1 -> write E t v2 = Ok b2 -> b1 ++ r1 = b2 ++ r2 -> v1 = v2 /\ r1 = r2.
Proof. exact write_prefix_free. Qed.
Print Assumptions C05_prefix_free.

Theorem C05_sequences_unambiguous : forall E ts vs1 vs2 bss1 bss2,
  Forall2 (has_type E) ts vs1 -> Forall2 (has_type E) ts vs2 ->
  Forall (all_carried E) vs1 -> Forall (all_carried E) vs2 ->
  Forall2 (fun tv b => write E (fst tv) (snd tv) = Ok b) (combine ts vs1) bss1 ->
  Forall2 (fun tv b => write E (fst tv) (snd tv) = Ok b) (combine ts vs2) bss2 ->
  concat bss1 = concat bss2 -> vs1 = vs2.
Proof. exact write_all_injective. Qed.
Print Assumptions C05_sequences_unambiguous.

(** ** C06: timestamps. *)
Theorem C06_timestamp_roundtrip_partial : forall E t d rest bs,
  - half 8 <= t / 1000000000 < half 8 -> ~ (-1000000000 < t < 0) ->
  write E TTimestamp (VTime t) = Ok bs -> read E (S d) TTimestamp (bs ++ rest) = Ok (VTime t, rest).
Proof. exact timestamp_roundtrip. Qed.
Print Assumptions C06_timestamp_roundtrip_partial.

(** Every instant strictly between 1969-12-31 23:59:59 and 1970 comes back
    mirrored around 1970. *)
Theorem C06_timestamp_refuted : forall E t d rest, -1000000000 < t < 0 ->
  exists bs, write E TTimestamp (VTime t) = Ok bs /\
             read E (S d) TTimestamp (bs ++ rest) = Ok (VTime (- t), rest) /\ - t <> t.
Proof. exact timestamp_mirrored. Qed.
Print Assumptions C06_timestamp_refuted.

Example C06_example :
  write ex_env TTimestamp (VTime (-1500000000)) = Ok (enc 8 (-1) ++ enc 4 500000000) /\
  read ex_env 1 TTimestamp (enc 8 (-1) ++ enc 4 500000000) = Ok (VTime (-1500000000), []) /\
  read ex_env 1 TTimestamp (enc 8 0 ++ enc 4 1) = Ok (VTime 1, []) /\
  write ex_env TTimestamp (VTime (-1)) = Ok (enc 8 0 ++ enc 4 1).
Proof. vm_compute. auto. Qed.

(** ** C07: lengths. *)
Theorem C07_oversized_panics : forall E t v, has_type E t v ->
  (write E t v = Panic <-> exists u, In u (subvals v) /\ unwritable u).
Proof. exact (fun E t v H => proj1 (write_cases E v t H)). Qed.
Print Assumptions C07_oversized_panics.

Theorem C07_length_prefix : forall E t v bs, write E t v = Ok bs ->
  match v with
  | VStr s => bs = enc 4 (Z.of_nat (length s)) ++ s /\ Z.of_nat (length s) < half 4
  | VSeq vs | VSet vs => Z.of_nat (length vs) < half 4 /\ exists b, bs = enc 4 (Z.of_nat (length vs)) ++ b
  | VMap kvs => Z.of_nat (length kvs) < half 4 /\ exists b, bs = enc 4 (Z.of_nat (length kvs)) ++ b
  | _ => True
  end.
Proof. exact length_prefix. Qed.
Print Assumptions C07_length_prefix.

Theorem C07_negative_length_rejected : forall E d t n rest,
  match t with TString | TVec _ | TMap _ _ | TSet _ => True | _ => False end ->
  - half 4 <= n < 0 -> read E (S d) t (enc 4 n ++ rest) = Err.
Proof. exact negative_length. Qed.
Print Assumptions C07_negative_length_rejected.

Example C07_example :
  read ex_env 3 (TVec TBool) [xff; xff; xff; xff; x00] = Err /\
  write ex_env (TVec TBool) (VSeq [VBool true; VBool false]) = Ok [x00; x00; x00; x02; x01; x00].
Proof. vm_compute. auto. Qed.

(** ** C08: enum tags. *)
Theorem C08_unknown_tag_rejected : forall E n ne variants z rest d,
  defs E n = Some (DEnum ne variants) -> - half 4 <= z < half 4 ->
  ~ (1 <= z <= Z.of_nat (length variants)) ->
  read E (S d) (TNamed n) (enc 4 z ++ rest) = Err.
Proof. exact enum_tag_bad. Qed.
Print Assumptions C08_unknown_tag_rejected.

Theorem C08_tag_is_position : forall E n ne variants z rest d v r,
  defs E n = Some (DEnum ne variants) -> - half 4 <= z < half 4 ->
  read E d (TNamed n) (enc 4 z ++ rest) = Ok (v, r) ->
  1 <= z <= Z.of_nat (length variants) /\ exists vs, v = VEnum (Z.to_nat (z - 1)) vs.
Proof. exact enum_tag_good. Qed.
Print Assumptions C08_tag_is_position.

Theorem C08_every_variant_accepted : forall E n ne variants i ts vs bss rest d,
  defs E n = Some (DEnum ne variants) -> nth_error variants i = Some ts -> Z.of_nat i < i32_max ->
  Forall2 (has_type E) ts vs -> Forall (all_carried E) vs ->
  Forall (fun v => (vdepth v <= d)%nat) vs ->
  Forall2 (fun tv b => write E (fst tv) (snd tv) = Ok b) (combine ts vs) bss ->
  read E (S d) (TNamed n) (enc 4 (Z.of_nat i + 1) ++ concat bss ++ rest) = Ok (VEnum i vs, rest).
Proof. exact enum_accepts. Qed.
Print Assumptions C08_every_variant_accepted.

(** What Rust writes for a flat error is never liftable by Rust. *)
Theorem C08_flat_error_liftable_refuted : forall E n k r i msg bs d,
  defs E n = Some (DFlat k r) -> has_type E (TNamed n) (VFlat i msg) ->
  write E (TNamed n) (VFlat i msg) = Ok bs ->
  forall v, lift_buffer E d (TNamed n) bs <> Ok v.
Proof. exact flat_not_liftable. Qed.
Print Assumptions C08_flat_error_liftable_refuted.

(** What foreign code writes for one (the tag alone) is. *)
Theorem C08_flat_error_from_foreign : forall E n k i d,
  defs E n = Some (DFlat k true) -> (i < k)%nat -> Z.of_nat i < i32_max ->
  lift_buffer E (S d) (TNamed n) (enc 4 (Z.of_nat i + 1)) = Ok (VFlat i (display E n i)).
Proof. exact flat_from_foreign. Qed.
Print Assumptions C08_flat_error_from_foreign.

Example C08_example :
  read ex_env 5 (TNamed "Shape") [x00; x00; x00; x04] = Err /\
  read ex_env 5 (TNamed "Shape") [x00; x00; x00; x03] = Ok (VEnum 2 [], []) /\
  write ex_env (TNamed "Error") (VFlat 1 [x61]) = Ok [x00; x00; x00; x02; x00; x00; x00; x01; x61] /\
  lift_buffer ex_env 5 (TNamed "Error") [x00; x00; x00; x02; x00; x00; x00; x01; x61] = Err.
Proof. vm_compute. auto. Qed.

(** ** C09: maps and sets. *)
Theorem C09_last_entry_wins : forall E tk tv kvs bs rest d,
  Forall (fun p => has_type E tk (fst p) /\ has_type E tv (snd p) /\
                   all_carried E (fst p) /\ all_carried E (snd p) /\
                   (vdepth (fst p) <= d /\ vdepth (snd p) <= d)%nat) kvs ->
  write E (TMap tk tv) (VMap kvs) = Ok bs ->
  exists m, read E (S d) (TMap tk tv) (bs ++ rest) = Ok (VMap m, rest) /\
    NoDup (map fst m) /\ forall k, map_lookup k m = map_lookup k (rev kvs).
Proof. exact last_wins. Qed.
Print Assumptions C09_last_entry_wins.

Theorem C09_map_order_insensitive : forall E tk tv kvs kvs' bs bs' rest d,
  has_type E (TMap tk tv) (VMap kvs) -> all_carried E (VMap kvs) -> (vdepth (VMap kvs) <= d)%nat ->
  Permutation kvs kvs' ->
  write E (TMap tk tv) (VMap kvs) = Ok bs -> write E (TMap tk tv) (VMap kvs') = Ok bs' ->
  exists m m', read E d (TMap tk tv) (bs ++ rest) = Ok (VMap m, rest) /\
    read E d (TMap tk tv) (bs' ++ rest) = Ok (VMap m', rest) /\
    Permutation m m' /\ forall k, map_lookup k m = map_lookup k m'.
Proof. exact map_order. Qed.
Print Assumptions C09_map_order_insensitive.

Theorem C09_set_members : forall E t vs bs rest d,
  Forall (fun v => has_type E t v /\ all_carried E v /\ (vdepth v <= d)%nat) vs ->
  write E (TSet t) (VSet vs) = Ok bs ->
  exists s, read E (S d) (TSet t) (bs ++ rest) = Ok (VSet s, rest) /\
    NoDup s /\ forall x, In x s <-> In x vs.
Proof. exact set_members. Qed.
Print Assumptions C09_set_members.

Example C09_example :
  match write ex_env (TMap TBool (TInt false W8)) (VMap [(VBool true, VInt 1); (VBool false, VInt 2); (VBool true, VInt 3)]) with
  | Ok bs => read ex_env 3 (TMap TBool (TInt false W8)) bs
             = Ok (VMap [(VBool true, VInt 3); (VBool false, VInt 2)], [])
  | _ => False
  end.
Proof. vm_compute. reflexivity. Qed.
