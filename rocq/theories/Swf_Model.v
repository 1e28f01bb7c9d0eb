(** Model of the Swift side of the RustBuffer format: the [read] and [write]
    methods of the converters in
    /repo/uniffi_bindgen/src/bindings/swift/templates/*.swift.

    A thrown Swift error is [Err]; a trap ([fatalError], a checked integer
    conversion or range that fails) is [Panic]. *)
From Verif Require Import Base Utf8 Wire_Model.
Local Open Scope Z_scope.

(** * Swift values

    Integers and floats have the width of their type (a float is its bit
    pattern).  A [String] is the UTF-8 it stores.  [Data] is a byte string.  A
    [Date] is a double, the seconds since the start of 2001; a [TimeInterval] is a
    double.  [Optional] is a real wrapper in Swift: [.some(nil)] differs from
    [nil].  A dictionary or a set is listed in the arbitrary order in which it is
    iterated.  Values of record, enum, error and class types carry no name: Swift
    is statically typed, so [swrite] is only called at the type of the value.
    /repo/uniffi_bindgen/src/bindings/swift/gen_swift/mod.rs:767 ([Box] is
    its inner type), templates/CustomType.swift:1-30 (a custom type without a
    configuration is an alias of its builtin; configured ones are not modelled). *)
Inductive sval :=
| SInt (z : Z)
| SFloat (bits : Z)
| SBool (b : bool)
| SStr (s : bytes)
| SData (s : bytes)
| SDate (since2001 : Z)
| SInterval (secs : Z)
| SNil
| SSome (v : sval)
| SArr (vs : list sval)
| SDict (kvs : list (sval * sval))
| SSet (vs : list sval)
| SStruct (vs : list sval)
| SCase (i : nat) (vs : list sval)
| SFlat (i : nat) (msg : bytes)
| SRef (handle : Z).

(** The two parts of Swift's [String] that are not modelled further: how
    [String(decoding:as:)] repairs bytes that are not UTF-8, and the canonical
    form of a string: two strings are equal (and hash alike) when their canonical
    forms are the same, "Unicode canonical equivalence". *)
Record swift := { repair : bytes -> bytes; canon : bytes -> bytes }.

(** * Doubles

    A finite double is an integer number of units of 2^-1074, the smallest
    positive double.  Infinities and NaN are left out: the readers never make
    them, and the writers trap on them ([Int64(delta)], [UInt64(value)]). *)
Definition one : Z := 2 ^ 1074.

(** Round [n / k] to an integer, halves to even. *)
Definition nearest (n k : Z) : Z :=
  let q := n / k in
  let r := n mod k in
  if 2 * r <? k then q
  else if k <? 2 * r then q + 1
  else if Z.even q then q else q + 1.

(** The double nearest to [n / k] units, IEEE 754 round to nearest even: 53
    significant bits.  (Results beyond the largest double do not occur below.) *)
Definition rnd (n k : Z) : Z :=
  let a := Z.abs n in
  let ulp := 2 ^ Z.max 0 (Z.log2 (a / k) - 52) in
  Z.sgn n * (nearest a (k * ulp) * ulp).

Definition d_of_int (z : Z) : Z := rnd (z * one) 1.
Definition d_add (a b : Z) : Z := rnd (a + b) 1.
Definition d_sub (a b : Z) : Z := rnd (a - b) 1.
Definition d_mul (a b : Z) : Z := rnd (a * b) one.
Definition d_div (a b : Z) : Z := rnd (a * one) b.

(** [1.0e9], and Foundation's [timeIntervalBetween1970AndReferenceDate]. *)
Definition giga : Z := 1000000000 * one.
Definition epoch : Z := 978307200 * one.

(** [FfiConverterDuration.read], DurationHelper.swift:7-11. *)
Definition dur_read (secs nanos : Z) : Z :=
  d_add (d_of_int secs) (d_div (d_of_int nanos) giga).

(** Seconds and nanoseconds of a non-negative interval: [UInt64(value)] or
    [Int64(delta)] drop the fraction, [UInt32((value - Double(seconds)) * 1.0e9)]
    too; each traps out of range.  DurationHelper.swift:22-23,
    TimestampHelper.swift:37-38. *)
Definition split_secs (limit x : Z) : res (Z * Z) :=
  let secs := x / one in
  if limit <=? secs then Panic
  else let n := d_mul (d_sub x (d_of_int secs)) giga / one in
       if (n <? 0) || (modulus 4 <=? n) then Panic else Ok (secs, n).

(** [FfiConverterDuration.write], DurationHelper.swift:13-26. *)
Definition dur_write (x : Z) : res (Z * Z) :=
  if d_of_int i64_max <? x / one * one then Panic
  else if x <? 0 then Panic
  else split_secs (modulus 8) x.

(** [FfiConverterTimestamp.read], TimestampHelper.swift:7-22.  Foundation:
    [Date(timeIntervalSince1970: x)] stores [x - 978307200.0];
    [addingTimeInterval] adds to what is stored. *)
Definition date_read (secs nanos : Z) : Z :=
  let base := d_sub (d_of_int secs) epoch in
  if 0 <=? secs then d_add base (d_div (d_of_int nanos) giga)
  else d_add base (d_div (- d_of_int nanos) giga).

(** [FfiConverterTimestamp.write], TimestampHelper.swift:24-41.  Foundation:
    [timeIntervalSince1970] is what is stored plus [978307200.0]. *)
Definition date_write (x : Z) : res (Z * Z) :=
  let delta := d_add x epoch in
  let sign := if delta <? 0 then -1 else 1 in
  let delta := Z.abs delta in
  if d_of_int i64_max <? delta / one * one then Panic
  else let* '(secs, n) := split_secs (half 8) delta in Ok (sign * secs, n).

(** * Equality of keys

    The synthesised [==] and [hash(into:)] of records and enums
    (gen_swift/mod.rs:311-347, 359-390) and the ones of the standard
    library, as structural equality of values in which strings are replaced by
    their canonical form.  (Doubles, dates, dictionaries, sets and objects as keys
    are compared structurally here; the theorems leave them out.) *)
Fixpoint norm (W : swift) (v : sval) : sval :=
  match v with
  | SStr s => SStr (canon W s)
  | SSome v' => SSome (norm W v')
  | SArr vs => SArr (map (norm W) vs)
  | SDict kvs => SDict (map (fun p => (norm W (fst p), norm W (snd p))) kvs)
  | SSet vs => SSet (map (norm W) vs)
  | SStruct vs => SStruct (map (norm W) vs)
  | SCase i vs => SCase i (map (norm W) vs)
  | SFlat i m => SFlat i (canon W m)
  | _ => v
  end.

Fixpoint sval_eqb (a b : sval) {struct a} : bool :=
  let list_eqb :=
    (fix go (xs ys : list sval) {struct xs} : bool :=
       match xs, ys with
       | [], [] => true
       | x :: xs', y :: ys' => sval_eqb x y && go xs' ys'
       | _, _ => false
       end) in
  match a, b with
  | SInt x, SInt y => x =? y
  | SFloat x, SFloat y => x =? y
  | SBool x, SBool y => Bool.eqb x y
  | SStr x, SStr y => bytes_eqb x y
  | SData x, SData y => bytes_eqb x y
  | SDate x, SDate y => x =? y
  | SInterval x, SInterval y => x =? y
  | SNil, SNil => true
  | SSome x, SSome y => sval_eqb x y
  | SArr x, SArr y => list_eqb x y
  | SDict x, SDict y =>
    (fix go (xs ys : list (sval * sval)) {struct xs} : bool :=
       match xs, ys with
       | [], [] => true
       | (k, v) :: xs', (k', v') :: ys' => sval_eqb k k' && sval_eqb v v' && go xs' ys'
       | _, _ => false
       end) x y
  | SSet x, SSet y => list_eqb x y
  | SStruct x, SStruct y => list_eqb x y
  | SCase i x, SCase j y => (i =? j)%nat && list_eqb x y
  | SFlat i x, SFlat j y => (i =? j)%nat && bytes_eqb x y
  | SRef x, SRef y => x =? y
  | _, _ => false
  end.
Definition key_eqb (W : swift) (a b : sval) : bool := sval_eqb (norm W a) (norm W b).

(** [dict[key] = value] replaces the value of an equal key, which stays. *)
Fixpoint dict_set (W : swift) (k v : sval) (m : list (sval * sval)) : list (sval * sval) :=
  match m with
  | [] => [(k, v)]
  | (k', v') :: m' => if key_eqb W k' k then (k', v) :: m' else (k', v') :: dict_set W k v m'
  end.
(** [set.insert(item)] does nothing when the set has an equal element. *)
Fixpoint set_insert (W : swift) (x : sval) (s : list sval) : list sval :=
  match s with
  | [] => [x]
  | y :: s' => if key_eqb W y x then y :: s' else y :: set_insert W x s'
  end.
(** The loops of MapTemplate.swift:18-22 and SetTemplate.swift:16-19. *)
Definition dict_of (W : swift) (kvs : list (sval * sval)) : list (sval * sval) :=
  fold_left (fun m p => dict_set W (fst p) (snd p) m) kvs [].
Definition set_of (W : swift) (vs : list sval) : list sval :=
  fold_left (fun s x => set_insert W x s) vs [].

(** * Reading *)

(** An [Int32] length; a negative one traps: [0..<len], or the range in
    [readBytes] (RustBufferTemplate.swift:151).  ([reserveCapacity] may run out of
    memory before: not modelled.) *)
Definition slen : parser nat := fun bs =>
  let* '(x, r) := get_checked 4 bs in
  let n := dec_s x in
  if n <? 0 then Panic else Ok (Z.to_nat n, r).

(** [FfiConverterString.read], StringHelper.swift:36-40. *)
Definition sread_str (W : swift) : parser bytes := fun bs =>
  let* '(n, r) := slen bs in
  let* '(s, r') := get_checked n r in
  Ok (if utf8_valid s then s else repair W s, r').

Definition is_byte (t : ty) : bool :=
  match t with TInt false W8 => true | _ => false end.

(** [d] is the remaining stack depth. *)
Fixpoint sread (W : swift) (E : env) (d : nat) (t : ty) (bs : bytes) {struct d}
  : res (sval * bytes) :=
  match d with
  | O => Deep
  | S d' =>
    match t with
    (* Int8Helper.swift ... UInt64Helper.swift; readInt, RustBufferTemplate.swift:132-146 *)
    | TInt sg w =>
      let* '(x, r) := get_checked (wbytes w) bs in
      Ok (SInt (if sg then dec_s x else dec_u x), r)
    (* Float32Helper.swift, Float64Helper.swift: [Float(bitPattern:)] *)
    | TFloat db =>
      let* '(x, r) := get_checked (if db then 8 else 4)%nat bs in Ok (SFloat (dec_u x), r)
    (* BooleanHelper.swift:8-10, 16-18 *)
    | TBool => let* '(x, r) := get_checked 1 bs in Ok (SBool (negb (dec_s x =? 0)), r)
    | TString => let* '(s, r) := sread_str W bs in Ok (SStr s, r)
    | TTimestamp =>
      let* '(a, r) := get_checked 8 bs in
      let* '(b, r') := get_checked 4 r in Ok (SDate (date_read (dec_s a) (dec_u b)), r')
    | TDuration =>
      let* '(a, r) := get_checked 8 bs in
      let* '(b, r') := get_checked 4 r in Ok (SInterval (dur_read (dec_u a) (dec_u b)), r')
    (* OptionalTemplate.swift:16-22 *)
    | TOption t' =>
      let* '(x, r) := get_checked 1 bs in
      if dec_s x =? 0 then Ok (SNil, r)
      else if dec_s x =? 1 then let* '(v, r') := sread W E d' t' r in Ok (SSome v, r')
      else Err
    (* gen_swift/mod.rs:767 *)
    | TBox t' => sread W E d' t' bs
    (* SequenceTemplate.swift:15-23; DataHelper.swift:7-10 *)
    | TVec t' =>
      let* '(n, r) := slen bs in
      if is_byte t' then let* '(s, r') := get_checked n r in Ok (SData s, r')
      else let* '(vs, r') := repeat_read (sread W E d' t') n r in Ok (SArr vs, r')
    (* MapTemplate.swift:14-24 *)
    | TMap tk tv =>
      let* '(n, r) := slen bs in
      let* '(kvs, r') := repeat_read (read_pair (sread W E d' tk) (sread W E d' tv)) n r in
      Ok (SDict (dict_of W kvs), r')
    (* SetTemplate.swift:12-21 *)
    | TSet t' =>
      let* '(n, r) := slen bs in
      let* '(vs, r') := repeat_read (sread W E d' t') n r in Ok (SSet (set_of W vs), r')
    | TNamed n =>
      match defs E n with
      | None => Err
      (* RecordTemplate.swift:42-53 *)
      | Some (DRecord ts) =>
        let* '(vs, r) := read_all (sread W E d') ts bs in Ok (SStruct vs, r)
      (* EnumTemplate.swift:47-64; ErrorTemplate.swift:62-87 *)
      | Some (DEnum _ variants) =>
        let* '(x, r) := get_checked 4 bs in
        let i := dec_s x in
        if i <? 1 then Err
        else match nth_error variants (Z.to_nat (i - 1)) with
             | None => Err
             | Some ts =>
               let* '(vs, r') := read_all (sread W E d') ts r in
               Ok (SCase (Z.to_nat (i - 1)) vs, r')
             end
      (* ErrorTemplate.swift:54-60 *)
      | Some (DFlat k _) =>
        let* '(x, r) := get_checked 4 bs in
        let i := dec_s x in
        if (1 <=? i) && (i <=? Z.of_nat k)
        then let* '(m, r') := sread_str W r in Ok (SFlat (Z.to_nat (i - 1)) m, r')
        else Err
      (* ObjectTemplate.swift:104-107, 156-159: any UInt64 *)
      | Some DObject => let* '(x, r) := get_checked 8 bs in Ok (SRef (dec_u x), r)
      (* CustomType.swift:15-17 *)
      | Some (DCustom b) => sread W E d' b bs
      end
    end
  end.

(** [FfiConverterRustBuffer.lift], RustBufferTemplate.swift:238-246. *)
Definition slift (W : swift) (E : env) (d : nat) (t : ty) (bs : bytes) : res sval :=
  let* '(v, r) := sread W E d t bs in
  match r with [] => Ok v | _ => Err end.

(** * Writing *)

(** [Int32(value.count)] traps when it does not fit. *)
Definition put_slen (n : nat) : res bytes :=
  if Z.of_nat n <? half 4 then Ok (enc 4 (Z.of_nat n)) else Panic.

Fixpoint swrite_all (w : ty -> sval -> res bytes) (ts : list ty) (vs : list sval) : res bytes :=
  match ts, vs with
  | [], [] => Ok []
  | t :: ts', v :: vs' =>
    let* a := w t v in let* b := swrite_all w ts' vs' in Ok (a ++ b)
  | _, _ => Err
  end.

(** Is [z] an integer of the type? *)
Definition int_of (signed : bool) (w : width) (z : Z) : bool :=
  if signed then (- half (wbytes w) <=? z) && (z <? half (wbytes w))
  else (0 <=? z) && (z <? modulus (wbytes w)).

(** [Err]: not a value of the type, which the Swift compiler rules out. *)
Fixpoint swrite (E : env) (d : nat) (t : ty) (v : sval) {struct d} : res bytes :=
  match d with
  | O => Deep
  | S d' =>
    match t with
    (* writeInt, RustBufferTemplate.swift:198-201 *)
    | TInt sg w =>
      match v with
      | SInt z => if int_of sg w z then Ok (enc (wbytes w) z) else Err
      | _ => Err
      end
    (* writeFloat, writeDouble, RustBufferTemplate.swift:203-209 *)
    | TFloat db =>
      match v with
      | SFloat z => if (0 <=? z) && (z <? modulus (if db then 8 else 4)%nat)
                    then Ok (enc (if db then 8 else 4)%nat z) else Err
      | _ => Err
      end
    (* BooleanHelper.swift:12-14, 20-22 *)
    | TBool => match v with SBool b => Ok (enc 1 (if b then 1 else 0)) | _ => Err end
    (* StringHelper.swift:42-46 *)
    | TString =>
      match v with
      | SStr s => let* hd := put_slen (length s) in Ok (hd ++ s)
      | _ => Err
      end
    | TTimestamp =>
      match v with
      | SDate x => let* '(s, n) := date_write x in Ok (enc 8 s ++ enc 4 n)
      | _ => Err
      end
    | TDuration =>
      match v with
      | SInterval x => let* '(s, n) := dur_write x in Ok (enc 8 s ++ enc 4 n)
      | _ => Err
      end
    (* OptionalTemplate.swift:7-14 *)
    | TOption t' =>
      match v with
      | SNil => Ok (enc 1 0)
      | SSome v' => let* b := swrite E d' t' v' in Ok (enc 1 1 ++ b)
      | _ => Err
      end
    | TBox t' => swrite E d' t' v
    (* SequenceTemplate.swift:7-13; DataHelper.swift:12-16 *)
    | TVec t' =>
      if is_byte t' then
        match v with
        | SData s => let* hd := put_slen (length s) in Ok (hd ++ s)
        | _ => Err
        end
      else
        match v with
        | SArr vs =>
          let* hd := put_slen (length vs) in
          let* b := cat_res (map (swrite E d' t') vs) in Ok (hd ++ b)
        | _ => Err
        end
    (* MapTemplate.swift:5-12 *)
    | TMap tk tv =>
      match v with
      | SDict kvs =>
        let* hd := put_slen (length kvs) in
        let* b := cat_res (map (fun p => let* a := swrite E d' tk (fst p) in
                                         let* b := swrite E d' tv (snd p) in
                                         Ok (a ++ b)) kvs) in
        Ok (hd ++ b)
      | _ => Err
      end
    (* SetTemplate.swift:4-10 *)
    | TSet t' =>
      match v with
      | SSet vs =>
        let* hd := put_slen (length vs) in
        let* b := cat_res (map (swrite E d' t') vs) in Ok (hd ++ b)
      | _ => Err
      end
    | TNamed n =>
      match defs E n with
      | None => Err
      (* RecordTemplate.swift:55-59 *)
      | Some (DRecord ts) =>
        match v with SStruct vs => swrite_all (swrite E d') ts vs | _ => Err end
      (* EnumTemplate.swift:66-82; ErrorTemplate.swift:99-113 *)
      | Some (DEnum _ variants) =>
        match v with
        | SCase i vs =>
          match nth_error variants i with
          | Some ts =>
            (* tags are Int32 literals *)
            if Z.of_nat i <? i32_max then
              let* b := swrite_all (swrite E d') ts vs in
              Ok (enc 4 (Z.of_nat i + 1) ++ b)
            else Err
          | None => Err
          end
        | _ => Err
        end
      (* only the tag: ErrorTemplate.swift:94-97 *)
      | Some (DFlat k _) =>
        match v with
        | SFlat i _ =>
          if (i <? k)%nat && (Z.of_nat i <? i32_max)
          then Ok (enc 4 (Z.of_nat i + 1)) else Err
        | _ => Err
        end
      | Some DObject =>
        match v with
        | SRef h => if int_of false W64 h then Ok (enc 8 h) else Err
        | _ => Err
        end
      (* CustomType.swift:19-21 *)
      | Some (DCustom b) => swrite E d' b v
      end
    end
  end.
