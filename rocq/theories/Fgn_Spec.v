(** When do a Rust value and a foreign value mean the same thing?  Nothing here
    mentions a reader or a writer. *)
From Verif Require Import Base Utf8 Wire_Model Wire_Spec Fgn_Model.
Local Open Scope Z_scope.

(** What the leaves mean.  A direction of travel (Rust to foreign, foreign to
    Rust) of a language is given by one [corr]. *)
Record corr := {
  (* integers that keep their value *)
  c_int : bool -> width -> Z -> Prop;
  (* [c_float double rust foreign]: bit patterns *)
  c_float : bool -> Z -> Z -> Prop;
  c_str : bytes -> list N -> Prop;
  (* nanoseconds since 1970 / ticks since 1970 *)
  c_time : Z -> Z -> Prop;
  (* nanoseconds / ticks *)
  c_dur : Z -> Z -> Prop;
  (* handles that may occur *)
  c_obj : Z -> Prop;
  (* foreign values that may be dictionary keys or set elements *)
  c_key : fval -> Prop }.

(** [same R E t v f]: the Rust value [v] and the foreign value [f] are the same
    value of type [t].  Boxes and custom types without a configuration are
    invisible on the foreign side; [Vec<u8>] is a byte string there; [Some(v)] is
    [v] itself, which cannot be the null value. *)
Inductive same (R : corr) (E : env) : ty -> val -> fval -> Prop :=
| s_int sg w z : c_int R sg w z -> same R E (TInt sg w) (VInt z) (FInt z)
| s_float d z f : c_float R d z f -> same R E (TFloat d) (VFloat z) (FFloat f)
| s_bool b : same R E TBool (VBool b) (FBool b)
| s_str s cs : c_str R s cs -> same R E TString (VStr s) (FStr cs)
| s_time t x : c_time R t x -> same R E TTimestamp (VTime t) (FTime x)
| s_dur t x : c_dur R t x -> same R E TDuration (VDur t) (FDur x)
| s_none t : same R E (TOption t) VNone FNone
| s_some t v f : same R E t v f -> f <> FNone -> same R E (TOption t) (VSome v) f
| s_box t v f : same R E t v f -> same R E (TBox t) (VBox v) f
| s_bytes bs :
    same R E (TVec (TInt false W8)) (VSeq (map (fun b => VInt (Z.of_N (b2n b))) bs)) (FBytes bs)
| s_seq t vs fs :
    t <> TInt false W8 -> Forall2 (same R E t) vs fs -> same R E (TVec t) (VSeq vs) (FSeq fs)
| s_map tk tv kvs fkvs :
    Forall2 (fun p q => same R E tk (fst p) (fst q)) kvs fkvs ->
    Forall2 (fun p q => same R E tv (snd p) (snd q)) kvs fkvs ->
    NoDup (map fst fkvs) -> Forall (c_key R) (map fst fkvs) ->
    same R E (TMap tk tv) (VMap kvs) (FMap fkvs)
| s_set t vs fs :
    Forall2 (same R E t) vs fs -> NoDup fs -> Forall (c_key R) fs ->
    same R E (TSet t) (VSet vs) (FSet fs)
| s_rec n ts vs fs :
    defs E n = Some (DRecord ts) -> sames R E ts vs fs ->
    same R E (TNamed n) (VRec vs) (FRec n fs)
| s_enum n ne variants i ts vs fs :
    defs E n = Some (DEnum ne variants) -> nth_error variants i = Some ts ->
    sames R E ts vs fs -> same R E (TNamed n) (VEnum i vs) (FEnum n i fs)
| s_flat n k r i msg cs :
    defs E n = Some (DFlat k r) -> c_str R msg cs ->
    same R E (TNamed n) (VFlat i msg) (FFlat n i cs)
| s_obj n h :
    defs E n = Some DObject -> c_obj R h -> same R E (TNamed n) (VObj h) (FObj n h)
| s_custom n b v f :
    defs E n = Some (DCustom b) -> same R E b v f ->
    same R E (TNamed n) (VCustom n v) f
with sames (R : corr) (E : env) : list ty -> list val -> list fval -> Prop :=
| ss_nil : sames R E [] [] []
| ss_cons t ts v vs f fs :
    same R E t v f -> sames R E ts vs fs -> sames R E (t :: ts) (v :: vs) (f :: fs).

(** Rust's own format drops the sign of an instant strictly inside the second
    before 1970 (see C06). *)
Definition no_lost_instant (v : val) : Prop :=
  forall t, In (VTime t) (subvals v) -> ~ (-1000000000 < t < 0).
Definition no_flat (v : val) : Prop := forall i m, ~ In (VFlat i m) (subvals v).

(** All the foreign values inside a foreign value, itself included. *)
Fixpoint fsubs (f : fval) : list fval :=
  f :: match f with
       | FSeq fs | FSet fs | FRec _ fs | FEnum _ _ fs => flat_map fsubs fs
       | FMap kfs => flat_map (fun p => fsubs (fst p) ++ fsubs (snd p)) kfs
       | _ => []
       end.

(** A foreign value that a program of the language can hold: a dictionary has no
    two equal keys, and the leaves satisfy [P]. *)
Definition fwf (P : fval -> Prop) (f : fval) : Prop :=
  forall g, In g (fsubs f) ->
  P g /\ match g with
         | FMap kfs => NoDup (map fst kfs)
         | FSet fs => NoDup fs
         | FFlat _ _ _ => False (* flat errors do not travel to Rust *)
         | _ => True
         end.

(** No type used as a map key or set element in [t] contains an [f32]. *)
Definition no_f32_keys (E : env) (t : ty) : Prop :=
  forall u, uses E t u ->
  match u with
  | TMap k _ | TSet k => ~ uses E k (TFloat false)
  | _ => True
  end.

(** * Floats

    The magnitude of a finite float as a multiple of 2^-1074, the smallest
    positive double. *)
Definition sign64 (f : Z) : Z := f / 2 ^ 63.
Definition exp64 (f : Z) : Z := (f / 2 ^ 52) mod 2048.
Definition man64 (f : Z) : Z := f mod 2 ^ 52.
Definition mag64 (f : Z) : Z :=
  if exp64 f =? 0 then man64 f else (2 ^ 52 + man64 f) * 2 ^ (exp64 f - 1).

Definition sign32 (b : Z) : Z := b / 2 ^ 31.
Definition exp32 (b : Z) : Z := (b / 2 ^ 23) mod 256.
Definition man32 (b : Z) : Z := b mod 2 ^ 23.
Definition mag32 (b : Z) : Z :=
  (if exp32 b =? 0 then man32 b else (2 ^ 23 + man32 b) * 2 ^ (exp32 b - 1)) * 2 ^ 925.

Definition is_f32 (b : Z) : Prop := 0 <= b < 2 ^ 32.
Definition is_f64 (f : Z) : Prop := 0 <= f < 2 ^ 64.
Definition fin32 (b : Z) : Prop := exp32 b <> 255.
Definition fin64 (f : Z) : Prop := exp64 f <> 2047.
Definition inf32 (b : Z) : Prop := exp32 b = 255 /\ man32 b = 0.
Definition inf64 (f : Z) : Prop := exp64 f = 2047 /\ man64 f = 0.
Definition nan32 (b : Z) : Prop := exp32 b = 255 /\ man32 b <> 0.
Definition nan64 (f : Z) : Prop := exp64 f = 2047 /\ man64 f <> 0.
(** A quiet NaN has the top bit of its mantissa set. *)
Definition quiet32 (b : Z) : Prop := 2 ^ 22 <= man32 b.

(** The double [f] is the same number as the f32 [b]: the same finite number, the
    same infinity, or the NaN with the same sign and payload.  (A signalling NaN
    has no counterpart: it arrives as some NaN.) *)
Definition number_of (b f : Z) : Prop :=
  is_f64 f /\ sign64 f = sign32 b /\
  ((fin32 b /\ fin64 f /\ mag64 f = mag32 b)
   \/ (inf32 b /\ inf64 f)
   \/ (nan32 b /\ quiet32 b /\ nan64 f /\ man64 f = man32 b * 2 ^ 29)).

(** The f32 [b] is the rounding of the double [f]: no f32 is closer; NaN becomes
    NaN; an infinity stays one, and a number becomes an infinity only beyond the
    largest finite f32. *)
Definition rounding_of (b f : Z) : Prop :=
  is_f32 b /\ sign32 b = sign64 f /\
  (nan64 f <-> nan32 b) /\
  (inf64 f -> inf32 b) /\
  (fin64 f -> fin32 b -> forall b', is_f32 b' -> fin32 b' ->
     Z.abs (mag32 b - mag64 f) <= Z.abs (mag32 b' - mag64 f)) /\
  (fin64 f -> inf32 b -> forall b', is_f32 b' -> fin32 b' -> mag32 b' < mag64 f).

(** * Strings *)

(** [s] is the UTF-8 of the code points [cs]. *)
Definition str_cps (s : bytes) (cs : list N) : Prop := Forall scalar cs /\ s = utf8_enc cs.
(** [s] is the UTF-8, and [us] the UTF-16, of some code points. *)
Definition str_utf16 (s : bytes) (us : list N) : Prop :=
  exists cs, Forall scalar cs /\ s = utf8_enc cs /\ us = utf16_enc cs.

(** * Python *)

(** [x] is [t] rounded to a whole number of microseconds, a half to the even
    neighbour. *)
Definition nearest_us (t x : Z) : Prop :=
  2 * Z.abs (t - 1000 * x) < 1000 \/ (2 * Z.abs (t - 1000 * x) = 1000 /\ Z.Even x).

(** Python values that may be keys: not lists, dicts, sets, nor instances of
    generated classes that define [__eq__] without [__hash__]: records, and enums
    with data, whose Rust type does not export [Hash]. *)
Definition py_key (E : env) (exports_hash : string -> bool) (f : fval) : Prop :=
  match f with
  | FSeq _ | FMap _ | FSet _ => False
  | FRec n _ | FEnum n _ _ =>
    match defs E n with
    | Some (DRecord _) => exports_hash n = true
    | Some (DEnum _ variants) => Forall (fun ts => ts = []) variants \/ exports_hash n = true
    | _ => True
    end
  | _ => True
  end.

Definition py_to (E : env) (exports_hash : string -> bool) : corr := {|
  c_int := fun _ _ _ => True;
  c_float := fun d z f => if d then z = f else number_of z f;
  c_str := str_cps;
  c_time := fun t x => nearest_us t x /\ py_time_min <= x <= py_time_max;
  c_dur := fun t x => nearest_us t x /\ x <= py_delta_max;
  c_obj := fun h => h <> 0;
  c_key := py_key E exports_hash |}.

Definition py_from : corr := {|
  c_int := fun _ _ _ => True;
  c_float := fun d z f => if d then z = f else rounding_of z f;
  c_str := str_cps;
  c_time := fun t x => t = 1000 * x;
  c_dur := fun t x => t = 1000 * x;
  c_obj := fun _ => True;
  c_key := fun _ => True |}.

(** Values that both sides represent exactly. *)
Definition py_exact : corr := {|
  c_int := fun _ _ _ => True;
  c_float := fun d z f => if d then z = f else number_of z f;
  c_str := str_cps;
  c_time := fun t x => t = 1000 * x;
  c_dur := fun t x => t = 1000 * x;
  c_obj := fun _ => True;
  c_key := fun _ => True |}.

(** What a Python program can hold: floats are doubles, datetimes and timedeltas
    are in their ranges. *)
Definition py_leaf (f : fval) : Prop :=
  match f with
  | FFloat b => is_f64 b
  | FTime x => py_time_min <= x <= py_time_max
  | FDur x => py_delta_min <= x <= py_delta_max
  | _ => True
  end.

(** No negative duration inside. *)
Definition no_neg_dur (f : fval) : Prop := forall x, In (FDur x) (fsubs f) -> 0 <= x.

(** * Kotlin: floats keep their bits, nanoseconds are kept. *)

Definition kt_to : corr := {|
  c_int := fun _ _ _ => True;
  c_float := fun _ z f => z = f;
  c_str := str_utf16;
  c_time := fun t x => t = x /\ kt_time_min <= x <= kt_time_max;
  c_dur := fun t x => t = x /\ x / 1000000000 <= i64_max;
  c_obj := fun _ => True;
  c_key := fun _ => True |}.

Definition kt_from : corr := {|
  c_int := fun _ _ _ => True;
  c_float := fun _ z f => z = f;
  c_str := str_utf16;
  c_time := fun t x => t = x;
  c_dur := fun t x => t = x;
  c_obj := fun _ => True;
  c_key := fun _ => True |}.

(** The ranges of [java.time.Instant] and [java.time.Duration]. *)
Definition kt_leaf (f : fval) : Prop :=
  match f with
  | FTime x => kt_time_min <= x <= kt_time_max
  | FDur x => - (i64_max + 1) <= x / 1000000000 <= i64_max
  | _ => True
  end.

(** * Ruby: only doubles, whole nanoseconds. *)

Definition rb_to : corr := {|
  (* an unsigned byte is read as a signed one *)
  c_int := fun sg w z => sg = false -> w = W8 -> z < 128;
  c_float := fun d z f => if d then z = f else number_of z f;
  c_str := str_cps;
  c_time := fun t x => t = x;
  (* the seconds of a duration are read as a signed number *)
  c_dur := fun t x => t = x /\ x / 1000000000 <= i64_max;
  c_obj := fun _ => True;
  c_key := fun _ => True |}.

Definition rb_from : corr := {|
  c_int := fun _ _ _ => True;
  c_float := fun d z f => if d then z = f else rounding_of z f;
  c_str := str_cps;
  c_time := fun t x => t = x;
  c_dur := fun t x => t = x;
  c_obj := fun _ => True;
  c_key := fun _ => True |}.

Definition rb_exact : corr := {|
  c_int := fun _ _ _ => True;
  c_float := fun d z f => if d then z = f else number_of z f;
  c_str := str_cps;
  c_time := fun t x => t = x;
  c_dur := fun t x => t = x;
  c_obj := fun _ => True;
  c_key := fun _ => True |}.

(** Lengths fit the i32 prefix, and instants and durations fit Rust's types:
    [pack] does not check the former, and the range of [Time] and [Numeric] has
    no bound. *)
Definition rb_leaf (f : fval) : Prop :=
  match f with
  | FFloat b => is_f64 b
  | FTime x => Z.abs x / 1000000000 <= i64_max
  | FDur x => x / 1000000000 <= u64_max
  | FStr cs => Z.of_nat (length (utf8_enc cs)) <= i32_max
  | FBytes s => Z.of_nat (length s) <= i32_max
  | FSeq fs | FSet fs => Z.of_nat (length fs) <= i32_max
  | FMap kfs => Z.of_nat (length kfs) <= i32_max
  | _ => True
  end.

(** * Which Rust values have a foreign counterpart? *)

(** Types whose values may be the foreign null. *)
Inductive nullable (E : env) : ty -> Prop :=
| nu_opt t : nullable E (TOption t)
| nu_box t : nullable E t -> nullable E (TBox t)
| nu_custom n b : defs E n = Some (DCustom b) -> nullable E b -> nullable E (TNamed n).

(** No option of an option: the foreign side cannot tell [None] from [Some(None)]. *)
Definition plain_options (E : env) (t : ty) : Prop :=
  forall u, uses E t (TOption u) -> ~ nullable E u.

(** The types used as map keys or set elements in [t] satisfy [P]. *)
Definition key_types (E : env) (P : ty -> Prop) (t : ty) : Prop :=
  forall u, uses E t u -> match u with TMap k _ | TSet k => P k | _ => True end.

(** Python can use values of this type as keys. *)
Inductive py_key_type (E : env) (exports_hash : string -> bool) : ty -> Prop :=
| pk_int sg w : py_key_type E exports_hash (TInt sg w)
| pk_float d : py_key_type E exports_hash (TFloat d)
| pk_bool : py_key_type E exports_hash TBool
| pk_string : py_key_type E exports_hash TString
| pk_time : py_key_type E exports_hash TTimestamp
| pk_dur : py_key_type E exports_hash TDuration
| pk_opt t : py_key_type E exports_hash t -> py_key_type E exports_hash (TOption t)
| pk_box t : py_key_type E exports_hash t -> py_key_type E exports_hash (TBox t)
| pk_bytes : py_key_type E exports_hash (TVec (TInt false W8))
| pk_rec n ts : defs E n = Some (DRecord ts) -> exports_hash n = true ->
    py_key_type E exports_hash (TNamed n)
| pk_enum n ne variants : defs E n = Some (DEnum ne variants) ->
    Forall (fun ts => ts = []) variants \/ exports_hash n = true ->
    py_key_type E exports_hash (TNamed n)
| pk_flat n k r : defs E n = Some (DFlat k r) -> py_key_type E exports_hash (TNamed n)
| pk_obj n : defs E n = Some DObject -> py_key_type E exports_hash (TNamed n)
| pk_custom n b : defs E n = Some (DCustom b) -> py_key_type E exports_hash b ->
    py_key_type E exports_hash (TNamed n).

(** Keys that stay distinct when instants and durations are rounded. *)
Definition py_keys (E : env) (exports_hash : string -> bool) (k : ty) : Prop :=
  py_key_type E exports_hash k /\ ~ uses E k TTimestamp /\ ~ uses E k TDuration.

(** All the values inside [v], each with its type, when [v] has type [t].  A
    [Vec<u8>] counts as one value: it is a byte string on the foreign side. *)
Fixpoint tsubs (E : env) (t : ty) (v : val) {struct v} : list (ty * val) :=
  let fields :=
    (fix go (ts : list ty) (vs : list val) {struct vs} : list (ty * val) :=
       match ts, vs with
       | t :: ts', v :: vs' => tsubs E t v ++ go ts' vs'
       | _, _ => []
       end) in
  (t, v) ::
  match v with
  | VSome v' => match t with TOption t' => tsubs E t' v' | _ => [] end
  | VBox v' => match t with TBox t' => tsubs E t' v' | _ => [] end
  | VSeq vs =>
    match t with
    | TVec (TInt false W8) => []
    | TVec t' => flat_map (tsubs E t') vs
    | _ => []
    end
  | VSet vs => match t with TSet t' => flat_map (tsubs E t') vs | _ => [] end
  | VMap kvs =>
    match t with
    | TMap tk tv => flat_map (fun p => tsubs E tk (fst p) ++ tsubs E tv (snd p)) kvs
    | _ => []
    end
  | VRec vs =>
    match t with
    | TNamed n => match defs E n with Some (DRecord ts) => fields ts vs | _ => [] end
    | _ => []
    end
  | VEnum i vs =>
    match t with
    | TNamed n =>
      match defs E n with
      | Some (DEnum _ variants) =>
        match nth_error variants i with Some ts => fields ts vs | None => [] end
      | _ => []
      end
    | _ => []
    end
  | VCustom _ v' =>
    match t with
    | TNamed n => match defs E n with Some (DCustom b) => tsubs E b v' | _ => [] end
    | _ => []
    end
  | _ => []
  end.

(** Every leaf of [v] satisfies [P]. *)
Definition leaves (E : env) (P : ty -> val -> Prop) (t : ty) (v : val) : Prop :=
  forall u w, In (u, w) (tsubs E t v) -> P u w.

(** Rust leaves with a foreign counterpart. *)
Definition py_leaf_of (t : ty) (v : val) : Prop :=
  match v with
  | VFloat z => t = TFloat false -> nan32 z -> quiet32 z
  | VTime t => py_time_min * 1000 <= t <= py_time_max * 1000
  | VDur t => t <= py_delta_max * 1000
  | VObj h => h <> 0
  | _ => True
  end.
Definition kt_leaf_of (t : ty) (v : val) : Prop :=
  match v with
  | VTime t => kt_time_min <= t <= kt_time_max
  | VDur t => t / 1000000000 <= i64_max
  | _ => True
  end.
Definition rb_leaf_of (t : ty) (v : val) : Prop :=
  match v with
  | VInt z => t = TInt false W8 -> z < 128
  | VFloat z => t = TFloat false -> nan32 z -> quiet32 z
  | VDur t => t / 1000000000 <= i64_max
  | _ => True
  end.

(** Rust reads [v] from [bs], whatever follows, given enough stack. *)
Definition rust_reads (E : env) (t : ty) (bs : bytes) (v : val) : Prop :=
  forall d rest, (vdepth v <= d)%nat -> read E d t (bs ++ rest) = Ok (v, rest).
(** The foreign side reads [f] from [bs], whatever follows, given stack for [n]
    nested calls. *)
Definition foreign_reads (L : lang) (E : env) (t : ty) (n : nat) (bs : bytes) (f : fval) : Prop :=
  forall d rest, (n <= d)%nat -> fread L E d t (bs ++ rest) = Ok (f, rest).
