(** Model of the RustBuffer serialization format: the [write]/[try_read] pairs of
    /repo/uniffi_core/src/ffi_converter_impls.rs and the ones generated by
    /repo/uniffi_macros/src/{record,enum_,error,object,custom}.rs. *)
From Verif Require Import Base Utf8.
Local Open Scope Z_scope.

(** Widths of the integer primitives. *)
Inductive width := W8 | W16 | W32 | W64.
Definition wbytes (w : width) : nat :=
  match w with W8 => 1 | W16 => 2 | W32 => 4 | W64 => 8 end%nat.

(** The types that can be serialized.  [TInt true w] is i8..i64, [TInt false w]
    is u8..u64, [TFloat false] is f32 and [TFloat true] is f64.  [Vec<u8>] is
    [TVec (TInt false W8)].  User-defined types are nominal, so they may be
    recursive: [TNamed n] refers to a definition in the environment. *)
Inductive ty :=
| TInt (signed : bool) (w : width)
| TFloat (double : bool)
| TBool
| TString
| TTimestamp
| TDuration
| TOption (t : ty)
| TBox (t : ty)
| TVec (t : ty)
| TMap (k v : ty)
| TSet (t : ty)
| TNamed (n : string).

(** Definitions of user types.
    [DRecord fields]: uniffi_macros/src/record.rs:107-146.
    [DEnum non_exhaustive variants]: uniffi_macros/src/enum_.rs:170-272; one list
      of field types per variant.
    [DFlat n with_try_read]: a "flat" error enum of [n] variants,
      uniffi_macros/src/error.rs:55-171.
    [DObject]: an [Arc<T>] or trait object, serialized as its u64 handle,
      uniffi_macros/src/object.rs (write/try_read), trait_interface.rs.
    [DCustom builtin]: uniffi_macros/src/custom.rs:243-276. *)
Inductive def :=
| DRecord (fields : list ty)
| DEnum (non_exhaustive : bool) (variants : list (list ty))
| DFlat (n : nat) (with_try_read : bool)
| DObject
| DCustom (builtin : ty).

(** Values.  Floats are their bit patterns; a string is its UTF-8 bytes; an
    instant is its signed offset from the Unix epoch in nanoseconds; a duration
    is a count of nanoseconds.  A map or set is the list of its entries in the
    (arbitrary) order in which the hash table iterates over them.  [VEnum i vs]
    is variant number [i] (from 0).  [VFlat i msg] is variant [i] of a flat error
    whose [to_string()] is [msg].  A value of custom type [name] is represented by
    the builtin value it lowers to. *)
Inductive val :=
| VInt (z : Z)
| VFloat (bits : Z)
| VBool (b : bool)
| VStr (s : bytes)
| VTime (ns : Z)
| VDur (ns : Z)
| VNone
| VSome (v : val)
| VBox (v : val)
| VSeq (vs : list val)
| VMap (kvs : list (val * val))
| VSet (vs : list val)
| VRec (vs : list val)
| VEnum (i : nat) (vs : list val)
| VFlat (i : nat) (msg : bytes)
| VObj (handle : Z)
| VCustom (name : string) (v : val).

(** The environment: definitions, the user-written [try_lift] of each custom type
    (its result is given as the builtin value the lifted custom value lowers to)
    and the user-written [Display] of the unit variants of flat errors. *)
Record env := {
  defs : string -> option def;
  clift : string -> val -> res val;
  display : string -> nat -> bytes }.

Definition nanos_per_sec : Z := 1000000000.
Definition i32_max : Z := 2147483647.
Definition i64_max : Z := 9223372036854775807.
Definition u64_max : Z := 18446744073709551615.

(** [i32::try_from(len).unwrap()] then [put_i32]:
    ffi_converter_impls.rs:148-149, 343-344, 392-393, 490-491. *)
Definition put_len (n : nat) : res bytes :=
  if Z.of_nat n <=? i32_max then Ok (enc 4 (Z.of_nat n)) else Panic.

(** [SystemTime::write], ffi_converter_impls.rs:186-201.  [duration_since]
    returns the magnitude of the offset and sets the sign. *)
Definition write_time (t : Z) : res bytes :=
  let sign := if 0 <=? t then 1 else -1 in
  let off := Z.abs t in
  let secs := off / nanos_per_sec in
  let nanos := off mod nanos_per_sec in
  if secs <=? i64_max then Ok (enc 8 (sign * secs) ++ enc 4 nanos) else Panic.

(** [Duration::write], ffi_converter_impls.rs:231-234. *)
Definition write_dur (d : Z) : res bytes :=
  Ok (enc 8 (d / nanos_per_sec) ++ enc 4 (d mod nanos_per_sec)).

(** [String::write], ffi_converter_impls.rs:145-151. *)
Definition write_str (s : bytes) : res bytes :=
  let* hd := put_len (length s) in Ok (hd ++ s).

Fixpoint cat_res (l : list (res bytes)) : res bytes :=
  match l with
  | [] => Ok []
  | r :: rs => let* a := r in let* b := cat_res rs in Ok (a ++ b)
  end.

(** [write] for every type.  [Err] marks ill-typed values, which Rust's type
    checker rules out; no [write] in Rust returns an error. *)
Fixpoint write (E : env) (t : ty) (v : val) {struct v} : res bytes :=
  (* write each value of [vs] at the corresponding type of [ts] *)
  let fields :=
    (fix go (ts : list ty) (vs : list val) {struct vs} : res bytes :=
       match ts, vs with
       | [], [] => Ok []
       | t :: ts', v :: vs' =>
         let* a := write E t v in let* b := go ts' vs' in Ok (a ++ b)
       | _, _ => Err
       end) in
  match v with
  (* ffi_converter_impls.rs:56-58 *)
  | VInt z => match t with TInt _ w => Ok (enc (wbytes w) z) | _ => Err end
  | VFloat z => match t with TFloat d => Ok (enc (if d then 8 else 4)%nat z) | _ => Err end
  (* :88-102 *)
  | VBool b => match t with TBool => Ok (enc 1 (if b then 1 else 0)) | _ => Err end
  | VStr s => match t with TString => write_str s | _ => Err end
  | VTime n => match t with TTimestamp => write_time n | _ => Err end
  | VDur n => match t with TDuration => write_dur n | _ => Err end
  (* :257-265 *)
  | VNone => match t with TOption _ => Ok (enc 1 0) | _ => Err end
  | VSome v' =>
    match t with
    | TOption t' => let* b := write E t' v' in Ok (enc 1 1 ++ b)
    | _ => Err
    end
  (* :302-304 *)
  | VBox v' => match t with TBox t' => write E t' v' | _ => Err end
  (* :341-348 *)
  | VSeq vs =>
    match t with
    | TVec t' =>
      let* hd := put_len (length vs) in
      let* b := cat_res (map (write E t') vs) in Ok (hd ++ b)
    | _ => Err
    end
  (* :390-398 *)
  | VMap kvs =>
    match t with
    | TMap tk tv =>
      let* hd := put_len (length kvs) in
      let* b := cat_res (map (fun p => let* a := write E tk (fst p) in
                                       let* b := write E tv (snd p) in Ok (a ++ b)) kvs) in
      Ok (hd ++ b)
    | _ => Err
    end
  (* :488-495 *)
  | VSet vs =>
    match t with
    | TSet t' =>
      let* hd := put_len (length vs) in
      let* b := cat_res (map (write E t') vs) in Ok (hd ++ b)
    | _ => Err
    end
  (* record.rs:115,140-146 *)
  | VRec vs =>
    match t with
    | TNamed n => match defs E n with Some (DRecord ts) => fields ts vs | _ => Err end
    | _ => Err
    end
  (* enum_.rs:179-224 *)
  | VEnum i vs =>
    match t with
    | TNamed n =>
      match defs E n with
      | Some (DEnum ne variants) =>
        match nth_error variants i with
        | Some ts => let* b := fields ts vs in Ok (enc 4 (Z.of_nat i + 1) ++ b)
        | None => if ne then Panic else Err
        end
      | _ => Err
      end
    | _ => Err
    end
  (* error.rs:63-98 *)
  | VFlat i msg =>
    match t with
    | TNamed n =>
      match defs E n with
      | Some (DFlat k _) =>
        if (i <? k)%nat
        then let* b := write_str msg in Ok (enc 4 (Z.of_nat i + 1) ++ b)
        else Err
      | _ => Err
      end
    | _ => Err
    end
  (* object.rs:213-215 *)
  | VObj h =>
    match t with
    | TNamed n => match defs E n with Some DObject => Ok (enc 8 h) | _ => Err end
    | _ => Err
    end
  (* custom.rs:259-261 *)
  | VCustom m v' =>
    match t with
    | TNamed n =>
      match defs E n with
      | Some (DCustom b) => if String.eqb m n then write E b v' else Err
      | _ => Err
      end
    | _ => Err
    end
  end.

(** * Reading *)

Definition parser (A : Type) := bytes -> res (A * bytes).

(** [check_remaining(buf, k)?] followed by [buf.get_*()]; lib.rs:188-196. *)
Definition get_checked (k : nat) : parser bytes := fun bs =>
  match split_n k bs with Some p => Ok p | None => Err end.

(** [buf.get_*()] with no check: [Buf::get_*] panics when too few bytes remain. *)
Definition get_unchecked (k : nat) : parser bytes := fun bs =>
  match split_n k bs with Some p => Ok p | None => Panic end.

(** The i32 length prefix: [usize::try_from(buf.get_i32())?], ffi_converter_impls.rs:154-155,
    364-365, 413-414, 509-510. *)
Definition get_len : parser nat := fun bs =>
  let* '(x, r) := get_checked 4 bs in
  let n := dec_s x in
  if n <? 0 then Err else Ok (Z.to_nat n, r).

(** [String::try_read], ffi_converter_impls.rs:153-164. *)
Definition read_str : parser bytes := fun bs =>
  let* '(n, r) := get_len bs in
  let* '(s, r') := get_checked n r in
  if utf8_valid s then Ok (s, r') else Err.

(** [Duration::new(secs, nanos)]: whole seconds in [nanos] carry into [secs];
    panics when that overflows u64 ("overflow in Duration::new"). *)
Definition duration_new (secs nanos : Z) : res Z :=
  if secs + nanos / nanos_per_sec <=? u64_max
  then Ok (secs * nanos_per_sec + nanos) else Panic.

(** [Duration::try_read], ffi_converter_impls.rs:236-239. *)
Definition read_dur : parser Z := fun bs =>
  let* '(a, r) := get_checked 12 bs in
  let* d := duration_new (dec_u (firstn 8 a)) (dec_u (skipn 8 a)) in
  Ok (d, r).

(** The range of [SystemTime] on 64-bit Unix: an i64 count of seconds and 0..10^9
    nanoseconds. [UNIX_EPOCH + d] and [UNIX_EPOCH - d] panic outside it. *)
Definition time_in_range (t : Z) : bool :=
  (- (i64_max + 1) <=? t / nanos_per_sec) && (t / nanos_per_sec <=? i64_max).

(** [seconds.wrapping_abs() as u64]: |MIN| wraps to MIN, which as u64 is 2^63. *)
Definition wrapping_abs_as_u64 (s : Z) : Z := Z.abs s.

(** [SystemTime::try_read], ffi_converter_impls.rs:203-214. *)
Definition read_time : parser Z := fun bs =>
  let* '(a, r) := get_checked 12 bs in
  let s := dec_s (firstn 8 a) in
  let* off := duration_new (wrapping_abs_as_u64 s) (dec_u (skipn 8 a)) in
  let t := if 0 <=? s then off else - off in
  if time_in_range t then Ok (t, r) else Panic.

(** [n] reads in sequence, stopping at the first failure. *)
Fixpoint repeat_read {A} (p : parser A) (n : nat) : parser (list A) := fun bs =>
  match n with
  | O => Ok ([], bs)
  | S n' =>
    let* '(a, r) := p bs in
    let* '(l, r') := repeat_read p n' r in
    Ok (a :: l, r')
  end.

(** One parser per field, in order. *)
Fixpoint read_all {A B} (p : A -> parser B) (ts : list A) : parser (list B) := fun bs =>
  match ts with
  | [] => Ok ([], bs)
  | t :: ts' =>
    let* '(a, r) := p t bs in
    let* '(l, r') := read_all p ts' r in
    Ok (a :: l, r')
  end.

Definition read_pair {A B} (p : parser A) (q : parser B) : parser (A * B) := fun bs =>
  let* '(a, r) := p bs in
  let* '(b, r') := q r in
  Ok ((a, b), r').

(** Structural equality of values: the [Eq] of key types (derived by Rust for
    builtin keys; a user-written [Eq] is taken to agree with it). *)
Fixpoint val_eqb (a b : val) {struct a} : bool :=
  let list_eqb :=
    (fix go (xs ys : list val) {struct xs} : bool :=
       match xs, ys with
       | [], [] => true
       | x :: xs', y :: ys' => val_eqb x y && go xs' ys'
       | _, _ => false
       end) in
  match a, b with
  | VInt x, VInt y => x =? y
  | VFloat x, VFloat y => x =? y
  | VBool x, VBool y => Bool.eqb x y
  | VStr x, VStr y => bytes_eqb x y
  | VTime x, VTime y => x =? y
  | VDur x, VDur y => x =? y
  | VNone, VNone => true
  | VSome x, VSome y => val_eqb x y
  | VBox x, VBox y => val_eqb x y
  | VSeq x, VSeq y => list_eqb x y
  | VMap x, VMap y =>
    (fix go (xs ys : list (val * val)) {struct xs} : bool :=
       match xs, ys with
       | [], [] => true
       | (k, v) :: xs', (k', v') :: ys' => val_eqb k k' && val_eqb v v' && go xs' ys'
       | _, _ => false
       end) x y
  | VSet x, VSet y => list_eqb x y
  | VRec x, VRec y => list_eqb x y
  | VEnum i x, VEnum j y => (i =? j)%nat && list_eqb x y
  | VFlat i x, VFlat j y => (i =? j)%nat && bytes_eqb x y
  | VObj x, VObj y => x =? y
  | VCustom n x, VCustom m y => String.eqb n m && val_eqb x y
  | _, _ => false
  end.

(** [HashMap::insert]: replaces the value of an equal key, else adds the entry. *)
Fixpoint map_insert (k v : val) (m : list (val * val)) : list (val * val) :=
  match m with
  | [] => [(k, v)]
  | (k', v') :: m' =>
    if val_eqb k' k then (k', v) :: m' else (k', v') :: map_insert k v m'
  end.

(** [HashSet::insert]: no effect when an equal element is present. *)
Fixpoint set_insert (x : val) (s : list val) : list val :=
  match s with
  | [] => [x]
  | y :: s' => if val_eqb y x then y :: s' else y :: set_insert x s'
  end.

Definition build_map (kvs : list (val * val)) : list (val * val) :=
  fold_left (fun m p => map_insert (fst p) (snd p) m) kvs [].
Definition build_set (vs : list val) : list val :=
  fold_left (fun s x => set_insert x s) vs [].

(** [try_read] for every type.  [d] is the remaining stack depth. *)
Fixpoint read (E : env) (d : nat) (t : ty) (bs : bytes) {struct d} : res (val * bytes) :=
  match d with
  | O => Deep
  | S d' =>
    match t with
    (* :60-63 *)
    | TInt true w => let* '(x, r) := get_checked (wbytes w) bs in Ok (VInt (dec_s x), r)
    | TInt false w => let* '(x, r) := get_checked (wbytes w) bs in Ok (VInt (dec_u x), r)
    | TFloat db => let* '(x, r) := get_checked (if db then 8 else 4)%nat bs in Ok (VFloat (dec_u x), r)
    (* :92-107 *)
    | TBool =>
      let* '(x, r) := get_checked 1 bs in
      let n := dec_s x in
      if n =? 0 then Ok (VBool false, r)
      else if n =? 1 then Ok (VBool true, r) else Err
    | TString => let* '(s, r) := read_str bs in Ok (VStr s, r)
    | TTimestamp => let* '(x, r) := read_time bs in Ok (VTime x, r)
    | TDuration => let* '(x, r) := read_dur bs in Ok (VDur x, r)
    (* :275-282 *)
    | TOption t' =>
      let* '(x, r) := get_checked 1 bs in
      let n := dec_s x in
      if n =? 0 then Ok (VNone, r)
      else if n =? 1 then let* '(v, r') := read E d' t' r in Ok (VSome v, r')
      else Err
    (* :314-316 *)
    | TBox t' => let* '(v, r) := read E d' t' bs in Ok (VBox v, r)
    (* :363-371 *)
    | TVec t' =>
      let* '(n, r) := get_len bs in
      let* '(vs, r') := repeat_read (read E d' t') n r in
      Ok (VSeq vs, r')
    (* :412-422 *)
    | TMap tk tv =>
      let* '(n, r) := get_len bs in
      let* '(kvs, r') := repeat_read (read_pair (read E d' tk) (read E d' tv)) n r in
      Ok (VMap (build_map kvs), r')
    (* :508-516 *)
    | TSet t' =>
      let* '(n, r) := get_len bs in
      let* '(vs, r') := repeat_read (read E d' t') n r in
      Ok (VSet (build_set vs), r')
    | TNamed n =>
      match defs E n with
      | None => Err
      (* record.rs:116,127-129 *)
      | Some (DRecord ts) =>
        let* '(vs, r) := read_all (read E d') ts bs in Ok (VRec vs, r)
      (* enum_.rs:226-250 *)
      | Some (DEnum _ variants) =>
        let* '(x, r) := get_checked 4 bs in
        let i := dec_s x in
        if i <? 1 then Err
        else match nth_error variants (Z.to_nat (i - 1)) with
             | None => Err
             | Some ts =>
               let* '(vs, r') := read_all (read E d') ts r in
               Ok (VEnum (Z.to_nat (i - 1)) vs, r')
             end
      (* error.rs:107-156; no check_remaining before get_i32 *)
      | Some (DFlat k true) =>
        let* '(x, r) := get_unchecked 4 bs in
        let i := dec_s x in
        if (1 <=? i) && (i <=? Z.of_nat k)
        then Ok (VFlat (Z.to_nat (i - 1)) (display E n (Z.to_nat (i - 1))), r)
        else Err
      | Some (DFlat _ false) => Panic
      (* object.rs:222-225 *)
      | Some DObject =>
        let* '(x, r) := get_checked 8 bs in Ok (VObj (dec_u x), r)
      (* custom.rs:263-266 *)
      | Some (DCustom b) =>
        let* '(v, r) := read E d' b bs in
        let* v' := clift E n v in
        Ok (VCustom n v', r)
      end
    end
  end.

(** * Whole buffers *)

(** [lower_into_rust_buffer], ffi_converter_traits.rs:265-270. *)
Definition lower_buffer (E : env) (t : ty) (v : val) : res bytes := write E t v.

(** [try_lift_from_rust_buffer], ffi_converter_traits.rs:231-239: read one value,
    then fail if bytes are left. *)
Definition lift_buffer (E : env) (d : nat) (t : ty) (bs : bytes) : res val :=
  let* '(v, r) := read E d t bs in
  match r with [] => Ok v | _ :: _ => Err end.
