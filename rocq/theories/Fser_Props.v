(** C41: values packed in FFI buffer elements survive. *)
From Verif Require Import Base Fser_Model Fser_Spec Fser_Proofs.
Local Open Scope Z_scope.

(** Values written one after the other into any buffer with room for them are all read back, and the
    elements after them are left alone. *)
Theorem C41_read_back : forall tvs buf, typed tvs -> (total (map fst tvs) <= length buf)%nat ->
  exists buf', write_all tvs buf = Ok buf' /\ length buf' = length buf /\
    skipn (total (map fst tvs)) buf' = skipn (total (map fst tvs)) buf /\
    read_all (map fst tvs) buf' = Ok (map snd tvs).
Proof. exact write_then_read. Qed.
Print Assumptions C41_read_back.

(** Each is at the position that the sizes of those before it give. *)
Theorem C41_in_place : forall before t v after buf buf',
  typed (before ++ (t, v) :: after) ->
  write_all (before ++ (t, v) :: after) buf = Ok buf' ->
  get t (skipn (total (map fst before)) buf') = Ok v.
Proof. exact each_in_place. Qed.
Print Assumptions C41_in_place.

(** Consecutive values do not overlap: changing one of them changes no element outside its own. *)
Theorem C41_no_overlap : forall before t v v' after buf b b',
  typed (before ++ (t, v) :: after) -> has_type v' t ->
  (total (map fst (before ++ (t, v) :: after)) <= length buf)%nat ->
  write_all (before ++ (t, v) :: after) buf = Ok b ->
  write_all (before ++ (t, v') :: after) buf = Ok b' ->
  firstn (total (map fst before)) b' = firstn (total (map fst before)) b /\
  skipn (total (map fst before) + elements t) b' = skipn (total (map fst before) + elements t) b.
Proof. exact no_overlap. Qed.
Print Assumptions C41_no_overlap.

(** A buffer that is too short is never overrun: the call panics. *)
Theorem C41_write_short : forall tvs buf, typed tvs -> (length buf < total (map fst tvs))%nat ->
  write_all tvs buf = Panic.
Proof. exact write_all_short. Qed.
Print Assumptions C41_write_short.

Theorem C41_read_short : forall ts buf, (length buf < total ts)%nat -> read_all ts buf = Panic.
Proof. exact read_all_short. Qed.
Print Assumptions C41_read_short.

(** Whatever the elements hold, reading gives values of the types asked for. *)
Theorem C41_read_any : forall ts buf, (total ts <= length buf)%nat ->
  exists vs, read_all ts buf = Ok vs /\ Forall2 has_type vs ts.
Proof. exact read_all_any. Qed.
Print Assumptions C41_read_any.

(** A call: the function gets the arguments that the caller wrote, and the caller reads the result and
    status that the function gave, whatever the memory held before. *)
Theorem C41_call : forall args ret (f : list fval -> fval * fval) arg_mem ret_mem,
  typed args -> (total (map fst args) <= length arg_mem)%nat ->
  (elements ret + 4 <= length ret_mem)%nat ->
  has_type (fst (f (map snd args))) ret -> has_type (snd (f (map snd args))) FStatus ->
  exists arg_mem' ret_mem', write_all args arg_mem = Ok arg_mem' /\
    buffer_fn (map fst args) ret f arg_mem' ret_mem = Ok ret_mem' /\
    read_all [ret; FStatus] ret_mem' = Ok [fst (f (map snd args)); snd (f (map snd args))] /\
    length ret_mem' = length ret_mem /\
    skipn (elements ret + 4) ret_mem' = skipn (elements ret + 4) ret_mem.
Proof. exact call_with_status. Qed.
Print Assumptions C41_call.

Theorem C41_call_no_status : forall args ret (f : list fval -> fval) arg_mem ret_mem,
  typed args -> (total (map fst args) <= length arg_mem)%nat ->
  (elements ret <= length ret_mem)%nat ->
  has_type (f (map snd args)) ret ->
  exists arg_mem' ret_mem', write_all args arg_mem = Ok arg_mem' /\
    buffer_fn_no_status (map fst args) ret f arg_mem' ret_mem = Ok ret_mem' /\
    read_all [ret] ret_mem' = Ok [f (map snd args)] /\
    length ret_mem' = length ret_mem /\
    skipn (elements ret) ret_mem' = skipn (elements ret) ret_mem.
Proof. exact call_without_status. Qed.
Print Assumptions C41_call_no_status.
