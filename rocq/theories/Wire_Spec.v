(** Specification vocabulary for the wire properties: which values inhabit a
    type, which types are reachable from a type, what a map or set contains.
    Nothing here mentions [write] or [read]. *)
From Verif Require Import Base Utf8 Wire_Model.
Local Open Scope Z_scope.

(** [has_type E t v]: [v] is a Rust value of type [t]. *)
Inductive has_type (E : env) : ty -> val -> Prop :=
| ht_sint (w : width) (z : Z) : - half (wbytes w) <= z < half (wbytes w) -> has_type E (TInt true w) (VInt z)
| ht_uint (w : width) (z : Z) : 0 <= z < modulus (wbytes w) -> has_type E (TInt false w) (VInt z)
| ht_float (d : bool) (z : Z) : 0 <= z < modulus (if d then 8 else 4)%nat -> has_type E (TFloat d) (VFloat z)
| ht_bool b : has_type E TBool (VBool b)
| ht_str s : utf8_valid s = true -> has_type E TString (VStr s)
(* an i64 count of seconds plus 0..999999999 nanoseconds *)
| ht_time (t : Z) : - half 8 <= t / 1000000000 < half 8 -> has_type E TTimestamp (VTime t)
(* a u64 count of seconds plus 0..999999999 nanoseconds *)
| ht_dur (d : Z) : 0 <= d / 1000000000 < modulus 8 -> has_type E TDuration (VDur d)
| ht_none t : has_type E (TOption t) VNone
| ht_some t v : has_type E t v -> has_type E (TOption t) (VSome v)
| ht_box t v : has_type E t v -> has_type E (TBox t) (VBox v)
| ht_seq t vs : Forall (has_type E t) vs -> has_type E (TVec t) (VSeq vs)
| ht_map tk tv kvs :
    Forall (fun p => has_type E tk (fst p)) kvs ->
    Forall (fun p => has_type E tv (snd p)) kvs ->
    NoDup (map fst kvs) -> has_type E (TMap tk tv) (VMap kvs)
| ht_set t vs : Forall (has_type E t) vs -> NoDup vs -> has_type E (TSet t) (VSet vs)
| ht_rec n ts vs :
    defs E n = Some (DRecord ts) -> Forall2 (has_type E) ts vs ->
    has_type E (TNamed n) (VRec vs)
(* an enum has fewer than 2^31 variants: its tags are i32 literals *)
| ht_enum n ne variants (i : nat) ts vs :
    defs E n = Some (DEnum ne variants) -> nth_error variants i = Some ts ->
    Z.of_nat i < i32_max ->
    Forall2 (has_type E) ts vs -> has_type E (TNamed n) (VEnum i vs)
| ht_flat n k r (i : nat) msg :
    defs E n = Some (DFlat k r) -> (i < k)%nat -> Z.of_nat i < i32_max ->
    utf8_valid msg = true ->
    has_type E (TNamed n) (VFlat i msg)
| ht_obj n (h : Z) :
    defs E n = Some DObject -> 0 <= h < modulus 8 -> has_type E (TNamed n) (VObj h)
| ht_custom n b v :
    defs E n = Some (DCustom b) -> has_type E b v -> has_type E (TNamed n) (VCustom n v).

(** All the values inside a value, itself included. *)
Fixpoint subvals (v : val) : list val :=
  v :: match v with
       | VSome v' | VBox v' | VCustom _ v' => subvals v'
       | VSeq vs | VSet vs | VRec vs | VEnum _ vs => flat_map subvals vs
       | VMap kvs => flat_map (fun p => subvals (fst p) ++ subvals (snd p)) kvs
       | _ => []
       end.

(** Nesting depth of a value: the number of nested [try_read] calls it takes. *)
Fixpoint vdepth (v : val) : nat :=
  S match v with
    | VSome v' | VBox v' | VCustom _ v' => vdepth v'
    | VSeq vs | VSet vs | VRec vs | VEnum _ vs => list_max (map vdepth vs)
    | VMap kvs => list_max (map (fun p => Nat.max (vdepth (fst p)) (vdepth (snd p))) kvs)
    | _ => O
    end.

(** A value that the format can carry: no instant strictly inside the second
    before 1970, no flat error (they only travel from Rust to foreign code), and
    every custom value survives its user-written lower/lift pair. *)
Definition carried (E : env) (v : val) : Prop :=
  match v with
  | VTime t => ~ (-1000000000 < t < 0)
  | VFlat _ _ => False
  | VCustom n b => clift E n b = Ok b
  | _ => True
  end.
Definition all_carried (E : env) (v : val) : Prop :=
  forall u, In u (subvals v) -> carried E u.

(** A value the writer must refuse: too many items for an i32 length, or an
    instant more than [i64::MAX] whole seconds away from 1970. *)
Definition unwritable (v : val) : Prop :=
  match v with
  | VStr s | VFlat _ s => i32_max < Z.of_nat (length s)
  | VSeq vs | VSet vs => i32_max < Z.of_nat (length vs)
  | VMap kvs => i32_max < Z.of_nat (length kvs)
  | VTime t => i64_max < Z.abs t / 1000000000
  | _ => False
  end.

(** [uses E t u]: a value of type [t] may contain a value of type [u]. *)
Inductive uses (E : env) : ty -> ty -> Prop :=
| uses_refl t : uses E t t
| uses_opt t u : uses E t u -> uses E (TOption t) u
| uses_box t u : uses E t u -> uses E (TBox t) u
| uses_vec t u : uses E t u -> uses E (TVec t) u
| uses_set t u : uses E t u -> uses E (TSet t) u
| uses_key k v u : uses E k u -> uses E (TMap k v) u
| uses_val k v u : uses E v u -> uses E (TMap k v) u
| uses_field n ts t u : defs E n = Some (DRecord ts) -> In t ts -> uses E t u -> uses E (TNamed n) u
| uses_variant n ne vs ts t u :
    defs E n = Some (DEnum ne vs) -> In ts vs -> In t ts -> uses E t u -> uses E (TNamed n) u
| uses_builtin n b u : defs E n = Some (DCustom b) -> uses E b u -> uses E (TNamed n) u.

(** What a map holds for a key. *)
Fixpoint map_lookup (k : val) (m : list (val * val)) : option val :=
  match m with
  | [] => None
  | (k', v) :: m' => if val_eqb k' k then Some v else map_lookup k m'
  end.

(** The user-written lifts of custom types return values of the declared type. *)
Definition lifts_typed (E : env) : Prop :=
  forall n b v v', defs E n = Some (DCustom b) -> has_type E b v -> clift E n v = Ok v' ->
  has_type E b v'.
(** ... and do not panic. *)
Definition lifts_total (E : env) : Prop :=
  forall n v, clift E n v <> Panic /\ clift E n v <> Deep.
