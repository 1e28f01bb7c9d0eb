(** Model of the foreign side of the RustBuffer format: the generated Python,
    Kotlin and Ruby readers and writers.  Paths are relative to
    /repo/uniffi_bindgen/src/bindings.

    The three sets of templates have the same structure; they differ in how the
    leaves (numbers, strings, instants, durations, flags, lengths) are read and
    written.  [lang] collects what differs, [fread] and [fwrite] are the common
    structure, and [python], [kotlin], [ruby] are the three instances. *)
From Verif Require Import Base Utf8 Wire_Model.
Local Open Scope Z_scope.

(** * Foreign values

    A string is the list of its elements: code points in Python and Ruby, UTF-16
    code units in Kotlin.  An instant or duration is a count of the foreign
    type's ticks: microseconds in Python, nanoseconds in Kotlin and Ruby.  A
    float is the bit pattern of the foreign float: a double in Python and Ruby, a
    float or double in Kotlin.  [FObj n h] is an object whose handle is [h].
    [FFlat n i cs] is an exception of variant [i] of the flat error [n] with
    message [cs].  Custom types without a [lift]/[lower] configuration are aliases
    of their builtin and boxes do not exist on the foreign side, so neither has a
    constructor. *)
Inductive fval :=
| FInt (z : Z)
| FFloat (bits : Z)
| FBool (b : bool)
| FStr (cs : list N)
| FBytes (bs : bytes)
| FTime (ticks : Z)
| FDur (ticks : Z)
| FNone
| FSeq (vs : list fval)
| FMap (kvs : list (fval * fval))
| FSet (vs : list fval)
| FRec (n : string) (vs : list fval)
| FEnum (n : string) (i : nat) (vs : list fval)
| FFlat (n : string) (i : nat) (cs : list N)
| FObj (n : string) (h : Z).

Fixpoint list_N_eqb (a b : list N) : bool :=
  match a, b with
  | [], [] => true
  | x :: a', y :: b' => N.eqb x y && list_N_eqb a' b'
  | _, _ => false
  end.

(** Equality of keys: [==] of Python, Kotlin and Ruby on values of one type.
    Floats are compared by their bits: no Rust type with [Hash] and [Eq] holds a
    bare float. *)
Fixpoint fval_eqb (a b : fval) {struct a} : bool :=
  let list_eqb :=
    (fix go (xs ys : list fval) {struct xs} : bool :=
       match xs, ys with
       | [], [] => true
       | x :: xs', y :: ys' => fval_eqb x y && go xs' ys'
       | _, _ => false
       end) in
  match a, b with
  | FInt x, FInt y => x =? y
  | FFloat x, FFloat y => x =? y
  | FBool x, FBool y => Bool.eqb x y
  | FStr x, FStr y => list_N_eqb x y
  | FBytes x, FBytes y => bytes_eqb x y
  | FTime x, FTime y => x =? y
  | FDur x, FDur y => x =? y
  | FNone, FNone => true
  | FSeq x, FSeq y => list_eqb x y
  | FMap x, FMap y =>
    (fix go (xs ys : list (fval * fval)) {struct xs} : bool :=
       match xs, ys with
       | [], [] => true
       | (k, v) :: xs', (k', v') :: ys' => fval_eqb k k' && fval_eqb v v' && go xs' ys'
       | _, _ => false
       end) x y
  | FSet x, FSet y => list_eqb x y
  | FRec n x, FRec m y => String.eqb n m && list_eqb x y
  | FEnum n i x, FEnum m j y => String.eqb n m && (i =? j)%nat && list_eqb x y
  | FFlat n i x, FFlat m j y => String.eqb n m && (i =? j)%nat && list_N_eqb x y
  | FObj n x, FObj m y => String.eqb n m && (x =? y)
  | _, _ => false
  end.

Fixpoint fmap_insert (k v : fval) (m : list (fval * fval)) : list (fval * fval) :=
  match m with
  | [] => [(k, v)]
  | (k', v') :: m' =>
    if fval_eqb k' k then (k', v) :: m' else (k', v') :: fmap_insert k v m'
  end.

Fixpoint fset_insert (x : fval) (s : list fval) : list fval :=
  match s with
  | [] => [x]
  | y :: s' => if fval_eqb y x then y :: s' else y :: fset_insert x s'
  end.

Definition fbuild_map (kvs : list (fval * fval)) : list (fval * fval) :=
  fold_left (fun m p => fmap_insert (fst p) (snd p) m) kvs [].
Definition fbuild_set (vs : list fval) : list fval :=
  fold_left (fun s x => fset_insert x s) vs [].

(** * What differs between the languages *)

Record lang := {
  (* u8 read as a signed byte *)
  u8_signed : bool;
  (* the foreign float for the bits of an f32 (false) or f64 (true), and back *)
  f_read : bool -> Z -> Z;
  f_write : bool -> Z -> res Z;
  (* the byte of a boolean, and the flag byte of an optional *)
  bool_of : Z -> res bool;
  opt_of : Z -> res bool;
  s_read : bytes -> res (list N);
  s_write : list N -> res bytes;
  (* instants: from and to (signed seconds, unsigned nanoseconds) *)
  t_read : Z -> Z -> res Z;
  t_write : Z -> res (Z * Z);
  (* durations: from and to (unsigned seconds, unsigned nanoseconds) *)
  d_read : Z -> Z -> res Z;
  d_write : Z -> res (Z * Z);
  (* the i32 length prefix *)
  l_write : nat -> res bytes;
  (* may a handle be zero? *)
  null_ok : bool;
  (* can lists, maps and sets be dictionary keys? *)
  coll_hash : bool;
  (* can instances of the class generated for a type be dictionary keys? *)
  class_hash : string -> bool }.

(** Can [v] be a dictionary key?  Python's [hash(v)] raises for lists, dicts and
    sets; collections hash by content in Kotlin and Ruby. *)
Definition fhash (L : lang) (v : fval) : bool :=
  match v with
  | FSeq _ | FMap _ | FSet _ => coll_hash L
  | FRec n _ | FEnum n _ _ => class_hash L n
  | _ => true
  end.

Definition is_u8 (t : ty) : bool :=
  match t with TInt false W8 => true | _ => false end.

(** * Reading

    [d] is the remaining stack depth.  A raised exception is [Err].
    Python: templates/RustBufferTemplate.py:178-237 (stream), builtins/*.py,
    OptionalTemplate.py, SequenceTemplate.py, MapTemplate.py, SetTemplate.py,
    BoxTemplate.py, CustomType.py:1-26, RecordTemplate.py:57-64,
    EnumTemplate.py:154-171, ErrorTemplate.py, InterfaceTemplate.py.
    Kotlin: templates/*Helper.kt, OptionalTemplate.kt, SequenceTemplate.kt,
    MapTemplate.kt, SetTemplate.kt, RecordTemplate.kt:51-62, EnumTemplate.kt:49-58,131-143,
    ErrorTemplate.kt:74-96, ObjectTemplate.kt:269-275, CustomTypeTemplate.kt:3-7;
    boxes: gen_kotlin/mod.rs:657.
    Ruby: templates/RustBufferStream.rb; boxes: gen_ruby/mod.rs:77. *)
Definition check_keys (L : lang) (ks : list fval) : res unit :=
  if forallb (fhash L) ks then Ok tt else Err.

Fixpoint fread (L : lang) (E : env) (d : nat) (t : ty) (bs : bytes) {struct d}
  : res (fval * bytes) :=
  match d with
  | O => Deep
  | S d' =>
    match t with
    | TInt true w => let* '(x, r) := get_checked (wbytes w) bs in Ok (FInt (dec_s x), r)
    (* RustBufferStream.rb:34-38 reads u8 with 'c', a signed char *)
    | TInt false w =>
      let* '(x, r) := get_checked (wbytes w) bs in
      Ok (FInt (match w with
                | W8 => if u8_signed L then dec_s x else dec_u x
                | _ => dec_u x
                end), r)
    | TFloat db =>
      let* '(x, r) := get_checked (if db then 8 else 4)%nat bs in
      Ok (FFloat (f_read L db (dec_u x)), r)
    | TBool =>
      let* '(x, r) := get_checked 1 bs in
      let* b := bool_of L (dec_u x) in Ok (FBool b, r)
    | TString =>
      let* '(n, r) := get_len bs in
      let* '(s, r') := get_checked n r in
      let* cs := s_read L s in Ok (FStr cs, r')
    | TTimestamp =>
      let* '(a, r) := get_checked 12 bs in
      let* x := t_read L (dec_s (firstn 8 a)) (dec_u (skipn 8 a)) in Ok (FTime x, r)
    | TDuration =>
      let* '(a, r) := get_checked 12 bs in
      let* x := d_read L (dec_u (firstn 8 a)) (dec_u (skipn 8 a)) in Ok (FDur x, r)
    | TOption t' =>
      let* '(x, r) := get_checked 1 bs in
      let* some := opt_of L (dec_u x) in
      if some then fread L E d' t' r else Ok (FNone, r)
    | TBox t' => fread L E d' t' bs
    | TVec t' =>
      let* '(n, r) := get_len bs in
      if is_u8 t' then let* '(s, r') := get_checked n r in Ok (FBytes s, r')
      else let* '(vs, r') := repeat_read (fread L E d' t') n r in Ok (FSeq vs, r')
    | TMap tk tv =>
      let* '(n, r) := get_len bs in
      let* '(kvs, r') := repeat_read (read_pair (fread L E d' tk) (fread L E d' tv)) n r in
      let* _ := check_keys L (map fst kvs) in
      Ok (FMap (fbuild_map kvs), r')
    | TSet t' =>
      let* '(n, r) := get_len bs in
      let* '(vs, r') := repeat_read (fread L E d' t') n r in
      let* _ := check_keys L vs in
      Ok (FSet (fbuild_set vs), r')
    | TNamed n =>
      match defs E n with
      | None => Err
      | Some (DRecord ts) =>
        let* '(vs, r) := read_all (fread L E d') ts bs in Ok (FRec n vs, r)
      | Some (DEnum _ variants) =>
        let* '(x, r) := get_checked 4 bs in
        let i := dec_s x in
        if i <? 1 then Err
        else match nth_error variants (Z.to_nat (i - 1)) with
             | None => Err
             | Some ts =>
               let* '(vs, r') := read_all (fread L E d') ts r in
               Ok (FEnum n (Z.to_nat (i - 1)) vs, r')
             end
      (* a flat error arrives as its tag and its message *)
      | Some (DFlat k _) =>
        let* '(x, r) := get_checked 4 bs in
        let i := dec_s x in
        if (1 <=? i) && (i <=? Z.of_nat k)
        then let* '(m, r') := get_len r in
             let* '(s, r'') := get_checked m r' in
             let* cs := s_read L s in
             Ok (FFlat n (Z.to_nat (i - 1)) cs, r'')
        else Err
      | Some DObject =>
        let* '(x, r) := get_checked 8 bs in
        if (dec_u x =? 0) && negb (null_ok L) then Err else Ok (FObj n (dec_u x), r)
      | Some (DCustom b) => fread L E d' b bs
      end
    end
  end.

(** * Writing

    [Err] is a raised exception, or a value that is not of the declared type.
    Python: templates/RustBufferTemplate.py:239-309 (builder) and the [write]
    methods of the files above; Kotlin: the [write] methods; Ruby:
    templates/RustBufferBuilder.rb. *)
Definition in_int (signed : bool) (w : width) (z : Z) : bool :=
  if signed then (- half (wbytes w) <=? z) && (z <? half (wbytes w))
  else (0 <=? z) && (z <? modulus (wbytes w)).

Fixpoint fwrite_all (w : ty -> fval -> res bytes) (ts : list ty) (vs : list fval) : res bytes :=
  match ts, vs with
  | [], [] => Ok []
  | t :: ts', v :: vs' =>
    let* a := w t v in let* b := fwrite_all w ts' vs' in Ok (a ++ b)
  | _, _ => Err
  end.

Fixpoint fwrite (L : lang) (E : env) (d : nat) (t : ty) (v : fval) {struct d} : res bytes :=
  match d with
  | O => Deep
  | S d' =>
    match t with
    (* Python: [struct.pack] refuses integers out of range; Kotlin: integers are
       in range by their type; Ruby: [uniffi_in_range] *)
    | TInt sg w =>
      match v with
      | FInt z => if in_int sg w z then Ok (enc (wbytes w) z) else Err
      | _ => Err
      end
    | TFloat db =>
      match v with
      | FFloat z => let* z' := f_write L db z in Ok (enc (if db then 8 else 4)%nat z')
      | _ => Err
      end
    | TBool => match v with FBool b => Ok (enc 1 (if b then 1 else 0)) | _ => Err end
    | TString =>
      match v with
      | FStr cs => let* s := s_write L cs in let* hd := l_write L (length s) in Ok (hd ++ s)
      | _ => Err
      end
    | TTimestamp =>
      match v with
      | FTime x => let* '(s, n) := t_write L x in Ok (enc 8 s ++ enc 4 n)
      | _ => Err
      end
    | TDuration =>
      match v with
      | FDur x => let* '(s, n) := d_write L x in Ok (enc 8 s ++ enc 4 n)
      | _ => Err
      end
    | TOption t' =>
      match v with
      | FNone => Ok (enc 1 0)
      | _ => let* b := fwrite L E d' t' v in Ok (enc 1 1 ++ b)
      end
    | TBox t' => fwrite L E d' t' v
    | TVec t' =>
      if is_u8 t' then
        match v with
        | FBytes s => let* hd := l_write L (length s) in Ok (hd ++ s)
        | _ => Err
        end
      else
        match v with
        | FSeq vs =>
          let* hd := l_write L (length vs) in
          let* b := cat_res (map (fwrite L E d' t') vs) in Ok (hd ++ b)
        | _ => Err
        end
    | TMap tk tv =>
      match v with
      | FMap kvs =>
        let* hd := l_write L (length kvs) in
        let* b := cat_res (map (fun p => let* a := fwrite L E d' tk (fst p) in
                                         let* b := fwrite L E d' tv (snd p) in
                                         Ok (a ++ b)) kvs) in
        Ok (hd ++ b)
      | _ => Err
      end
    | TSet t' =>
      match v with
      | FSet vs =>
        let* hd := l_write L (length vs) in
        let* b := cat_res (map (fwrite L E d' t') vs) in Ok (hd ++ b)
      | _ => Err
      end
    | TNamed n =>
      match defs E n with
      | None => Err
      | Some (DRecord ts) =>
        match v with
        | FRec m vs => if String.eqb m n then fwrite_all (fwrite L E d') ts vs else Err
        | _ => Err
        end
      | Some (DEnum _ variants) =>
        match v with
        | FEnum m i vs =>
          if String.eqb m n then
            match nth_error variants i with
            | Some ts =>
              (* tags are i32 literals *)
              if Z.of_nat i <? i32_max then
                let* b := fwrite_all (fwrite L E d') ts vs in
                Ok (enc 4 (Z.of_nat i + 1) ++ b)
              else Err
            | None => Err
            end
          else Err
        | _ => Err
        end
      (* only the tag: ErrorTemplate.py, ErrorTemplate.kt:116-128 (a flat variant
         has no fields), RustBufferBuilder.rb:197-204 *)
      | Some (DFlat k _) =>
        match v with
        | FFlat m i _ =>
          if String.eqb m n && (i <? k)%nat && (Z.of_nat i <? i32_max)
          then Ok (enc 4 (Z.of_nat i + 1)) else Err
        | _ => Err
        end
      | Some DObject =>
        match v with
        | FObj m h => if String.eqb m n && in_int false W64 h then Ok (enc 8 h) else Err
        | _ => Err
        end
      | Some (DCustom b) => fwrite L E d' b v
      end
    end
  end.

(** * Leaves *)

(** Round [n / k] to an integer, halves to even. *)
Definition rhe (n k : Z) : Z :=
  let q := n / k in
  let r := n mod k in
  if 2 * r <? k then q
  else if k <? 2 * r then q + 1
  else if Z.even q then q else q + 1.

(** ** Floats.  Python and Ruby have only doubles: [struct.unpack(">f")] and
    [unpack("g")] widen, [struct.pack(">f")] and [pack("g")] narrow with C's
    conversion [(float) x], which rounds to nearest, ties to even. *)
Definition p23 : Z := 8388608.
Definition p29 : Z := 536870912.
Definition p31 : Z := 2147483648.
Definition p52 : Z := 4503599627370496.
Definition p63 : Z := 9223372036854775808.

(** The double with the value of the f32 with bit pattern [b].  Widening makes a
    signalling NaN quiet. *)
Definition widen (b : Z) : Z :=
  let s := b / p31 in
  let e := (b / p23) mod 256 in
  let m := b mod p23 in
  let sgn := s * p63 in
  if e =? 255 then
    if m =? 0 then sgn + 2047 * p52
    else sgn + 2047 * p52 + (if m <? 4194304 then m + 4194304 else m) * p29
  else if e =? 0 then
    if m =? 0 then sgn
    else let k := Z.log2 m in sgn + (k + 874) * p52 + (m - 2 ^ k) * 2 ^ (52 - k)
  else sgn + (e + 896) * p52 + m * p29.

(** The f32 nearest to the double with bit pattern [b]; [None] when a finite
    double rounds to infinity. *)
Definition narrow (b : Z) : option Z :=
  let s := b / p63 in
  let e := (b / p52) mod 2048 in
  let m := b mod p52 in
  let sgn := s * p31 in
  if e =? 2047 then
    if m =? 0 then Some (sgn + 255 * p23)
    else let m' := m / p29 in
         Some (sgn + 255 * p23 + (if m' <? 4194304 then m' + 4194304 else m'))
  else
    let mant := if e =? 0 then m else p52 + m in
    let ex := (if e =? 0 then 1 else e) - 1075 in
    let q := Z.max (ex + 29) (-149) in
    let n := rhe mant (2 ^ (q - ex)) in
    let bits := (q + 149) * p23 + n in
    if bits <? 255 * p23 then Some (sgn + bits) else None.

(** ** Strings *)

(** [str.encode("utf-8")] refuses lone surrogates (String.py:16-20);
    [bytes.decode("utf-8")] is strict (:8-14).  Ruby: [uniffi_utf8] of Helpers.rb:8-13
    refuses an invalid string.  Ruby's [force_encoding] on reading does not check
    the bytes; the model refuses invalid ones, which Rust never sends. *)
Definition cp_write (cs : list N) : res bytes :=
  if forallb scalarb cs then Ok (utf8_enc cs) else Err.
Definition cp_read (s : bytes) : res (list N) :=
  match utf8_dec s with Some cs => Ok cs | None => Err end.

(** UTF-16. *)
Definition utf16_enc1 (c : N) : list N :=
  (if c <? 0x10000 then [c]
   else [0xD800 + (c - 0x10000) / 0x400; 0xDC00 + (c - 0x10000) mod 0x400])%N.
Definition utf16_enc (cs : list N) : list N := flat_map utf16_enc1 cs.

Definition hi_surr (u : N) : bool := ((0xD800 <=? u) && (u <? 0xDC00))%N.
Definition lo_surr (u : N) : bool := ((0xDC00 <=? u) && (u <? 0xE000))%N.

(** [Charsets.UTF_8.newEncoder()] with [onMalformedInput(REPORT)]: a lone
    surrogate is an error. *)
Fixpoint utf16_dec (us : list N) : option (list N) :=
  match us with
  | [] => Some []
  | u :: r =>
    if hi_surr u then
      match r with
      | w :: r' =>
        if lo_surr w then
          match utf16_dec r' with
          | Some cs => Some ((0x10000 + (u - 0xD800) * 0x400 + (w - 0xDC00))%N :: cs)
          | None => None
          end
        else None
      | [] => None
      end
    else if lo_surr u then None
    else if (u <? 0x10000)%N then
      match utf16_dec r with Some cs => Some (u :: cs) | None => None end
    else None (* not a code unit *)
  end.

(** kotlin/templates/StringHelper.kt:18-31,51-55.  [toString(Charsets.UTF_8)]
    replaces malformed bytes; the model refuses them: Rust never sends any. *)
Definition kt_s_write (us : list N) : res bytes :=
  match utf16_dec us with Some cs => Ok (utf8_enc cs) | None => Err end.
Definition kt_s_read (s : bytes) : res (list N) :=
  match utf8_dec s with Some cs => Ok (utf16_enc cs) | None => Err end.

(** ** Python: ticks of a microsecond *)

(** The range of [datetime]: 0001-01-01 to 9999-12-31T23:59:59.999999. *)
Definition py_time_min : Z := -62135596800 * 1000000.
Definition py_time_max : Z := 253402300799 * 1000000 + 999999.
(** The upper end of [timedelta]: 999999999 days, 23:59:59.999999; its lower end
    is -999999999 days. *)
Definition py_delta_max : Z := 1000000000 * 86400 * 1000000 - 1.
Definition py_delta_min : Z := -999999999 * 86400 * 1000000.

(** python/templates/builtins/Timestamp.py:9-18.  [timedelta] rounds the
    fractional microseconds to nearest, halves to even; the division by 1000 is
    inexact only far from a half.  Out of range: [OverflowError]. *)
Definition py_t_read (secs nanos : Z) : res Z :=
  let delta := Z.abs secs * 1000000 + rhe nanos 1000 in
  let t := if 0 <=? secs then delta else - delta in
  if (py_time_min <=? t) && (t <=? py_time_max) then Ok t else Err.

(** Timestamp.py:25-36 *)
Definition py_t_write (t : Z) : res (Z * Z) :=
  let sign := if 0 <=? t then 1 else -1 in
  let delta := Z.abs t in
  Ok (sign * (delta / 1000000), (delta mod 1000000) * 1000).

(** python/templates/builtins/Duration.py:8-12 *)
Definition py_d_read (secs nanos : Z) : res Z :=
  let delta := secs * 1000000 + rhe nanos 1000 in
  if delta <=? py_delta_max then Ok delta else Err.

(** Duration.py:14-25.  [checked]: [check_lower] has run, as it does for the
    arguments of calls into Rust (CallableBody.py:8) but not for the values that
    callbacks return (CallbackInterfaceImpl.py:29-34,56-60).  [value.seconds] and
    [value.microseconds] are never negative: a negative timedelta has a negative
    [days]. *)
Definition py_d_write (checked : bool) (t : Z) : res (Z * Z) :=
  let secs := t / 1000000 in
  if checked && (secs <? 0) then Err else Ok (secs, (t mod 1000000) * 1000).

(** [struct.pack(">i", n)] raises when [n] does not fit. *)
Definition py_l_write (n : nat) : res bytes :=
  if Z.of_nat n <=? i32_max then Ok (enc 4 (Z.of_nat n)) else Err.

(** [exports_hash n]: the type [n] exports the [Hash] trait.  A generated class
    that defines [__eq__] has [__hash__ = None] unless [Hash] is exported
    (RecordTemplate.py:1,48-55, EnumTemplate.py:66-142); a flat enum is an
    [enum.Enum], which is hashable, and so are objects and exceptions. *)
Definition py_class_hash (E : env) (exports_hash : string -> bool) (n : string) : bool :=
  match defs E n with
  | Some (DRecord _) => exports_hash n
  | Some (DEnum _ variants) =>
    forallb (fun ts => match ts with [] => true | _ => false end) variants || exports_hash n
  | _ => true
  end.

(** Booleans: builtins/Boolean.py:11-20 ([value != 0]); flags:
    OptionalTemplate.py:16-24. *)
Definition flag_strict (z : Z) : res bool :=
  if z =? 0 then Ok false else if z =? 1 then Ok true else Err.
Definition flag_lax (z : Z) : res bool := Ok (negb (z =? 0)).

Definition python (E : env) (exports_hash : string -> bool) (checked : bool) : lang := {|
  u8_signed := false;
  f_read := fun db z => if db then z else widen z;
  (* [struct.pack(">f", x)] raises OverflowError *)
  f_write := fun db z => if db then Ok z else match narrow z with Some b => Ok b | None => Err end;
  bool_of := flag_lax;
  opt_of := flag_strict;
  s_read := cp_read;
  s_write := cp_write;
  t_read := py_t_read;
  t_write := py_t_write;
  d_read := py_d_read;
  d_write := py_d_write checked;
  l_write := py_l_write;
  (* InterfaceTemplate.py: [if ptr == 0: raise InternalError] *)
  null_ok := false;
  coll_hash := false;
  class_hash := py_class_hash E exports_hash |}.

(** ** Kotlin: ticks of a nanosecond *)

(** The range of [java.time.Instant]. *)
Definition kt_time_min : Z := -31557014167219200 * 1000000000.
Definition kt_time_max : Z := 31556889864403199 * 1000000000 + 999999999.

(** kotlin/templates/TimestampHelper.kt:5-17.  [-seconds] of [Long.MIN_VALUE] is
    itself, and the resulting instant is out of range as well. *)
Definition kt_t_read (secs nanos : Z) : res Z :=
  if i32_max <? nanos then Err
  else
    let t := if 0 <=? secs then secs * 1000000000 + nanos
             else - (- secs * 1000000000 + nanos) in
    if (kt_time_min <=? t) && (t <=? kt_time_max) then Ok t else Err.

(** TimestampHelper.kt:22-40: the sign and magnitude of the offset. *)
Definition kt_t_write (t : Z) : res (Z * Z) :=
  let sign := if t / 1000000000 <? 0 then -1 else 1 in
  let off := Z.abs t in
  Ok (sign * (off / 1000000000), off mod 1000000000).

(** kotlin/templates/DurationHelper.kt:5-17.  [ofSeconds] throws when the sum
    overflows a Long. *)
Definition kt_d_read (secs nanos : Z) : res Z :=
  if i64_max <? secs then Err
  else if i32_max <? nanos then Err
  else if secs + nanos / 1000000000 <=? i64_max
  then Ok (secs * 1000000000 + nanos) else Err.

(** DurationHelper.kt:22-38 *)
Definition kt_d_write (t : Z) : res (Z * Z) :=
  if t / 1000000000 <? 0 then Err else Ok (t / 1000000000, t mod 1000000000).

(** [size] and [limit()] are Ints; a longer string cannot be encoded. *)
Definition kt_l_write (n : nat) : res bytes := py_l_write n.

Definition kotlin : lang := {|
  u8_signed := false;
  f_read := fun _ z => z;
  f_write := fun db z =>
    if (0 <=? z) && (z <? modulus (if db then 8 else 4)%nat) then Ok z else Err;
  bool_of := flag_lax;
  (* OptionalTemplate.kt:8 *)
  opt_of := flag_lax;
  s_read := kt_s_read;
  s_write := kt_s_write;
  t_read := kt_t_read;
  t_write := kt_t_write;
  d_read := kt_d_read;
  d_write := kt_d_write;
  l_write := kt_l_write;
  null_ok := true;
  coll_hash := true;
  class_hash := fun _ => true |}.

(** ** Ruby: ticks of a nanosecond.  A [Time] may be more precise; [tv_nsec]
    rounds it down to a tick, and the model's instants are whole ticks. *)

(** ruby/templates/RustBufferStream.rb:123-141 *)
Definition rb_t_read (secs nanos : Z) : res Z :=
  if (secs <? 0) && negb (nanos =? 0)
  then Ok ((secs - 1) * 1000000000 + (1000000000 - nanos))
  else Ok (secs * 1000000000 + nanos).

(** ruby/templates/RustBufferBuilder.rb:128-147 *)
Definition rb_t_write (t : Z) : res (Z * Z) :=
  let secs := t / 1000000000 in
  let nanos := t mod 1000000000 in
  if (secs <? 0) && negb (nanos =? 0)
  then Ok (secs + 1, 1000000000 - nanos) else Ok (secs, nanos).

(** RustBufferStream.rb:146-151: 'q>' reads the seconds as signed. *)
Definition rb_d_read (secs nanos : Z) : res Z :=
  let s := if i64_max <? secs then secs - modulus 8 else secs in
  Ok (s * 1000000000 + nanos).

(** RustBufferBuilder.rb:152-160 *)
Definition rb_d_write (t : Z) : res (Z * Z) :=
  if t / 1000000000 <? 0 then Err else Ok (t / 1000000000, t mod 1000000000).

(** RustBufferBuilder.rb:112,120,249,260,271: [pack('l>')] keeps the low 32 bits. *)
Definition rb_l_write (n : nat) : res bytes := Ok (enc 4 (Z.of_nat n)).

Definition ruby : lang := {|
  u8_signed := true;
  f_read := fun db z => if db then z else widen z;
  (* [pack("g")] turns a double that is too large into an infinity *)
  f_write := fun db z =>
    Ok (if db then z
        else match narrow z with Some b => b | None => (z / p63) * p31 + 255 * p23 end);
  (* RustBufferStream.rb:90-97, 250-260 *)
  bool_of := flag_strict;
  opt_of := flag_strict;
  s_read := cp_read;
  s_write := cp_write;
  t_read := rb_t_read;
  t_write := rb_t_write;
  d_read := rb_d_read;
  d_write := rb_d_write;
  l_write := rb_l_write;
  null_ok := true;
  coll_hash := true;
  class_hash := fun _ => true |}.

(** * Whole buffers: read one value, fail when bytes remain.
    python/templates/RustBufferTemplate.py:60-71 ([consume_with_stream]),
    kotlin/templates/FfiConverterTemplate.kt:57-68, ruby/templates/RustBufferTemplate.rb
    ([consumeWithStream]). *)
Definition flift (L : lang) (E : env) (d : nat) (t : ty) (bs : bytes) : res fval :=
  let* '(v, r) := fread L E d t bs in
  match r with [] => Ok v | _ :: _ => Err end.

(** * Kotlin: the size computed before writing

    [allocationSize] of kotlin/templates/*Helper.kt, StringHelper.kt:45-49,
    ByteArrayHelper.kt:11-13, OptionalTemplate.kt:14-20, SequenceTemplate.kt:14-18,
    MapTemplate.kt:19-26, SetTemplate.kt:16-20, RecordTemplate.kt:64-68,
    EnumTemplate.kt:60,145-157, ErrorTemplate.kt:98-114, ObjectTemplate.kt:277. *)
Definition sumZ (l : list (res Z)) : res Z :=
  fold_right (fun a acc => let* x := a in let* s := acc in Ok (x + s)) (Ok 0) l.

Fixpoint kalloc_all (f : ty -> fval -> res Z) (ts : list ty) (vs : list fval) : res Z :=
  match ts, vs with
  | [], [] => Ok 0
  | t :: ts', v :: vs' => let* a := f t v in let* b := kalloc_all f ts' vs' in Ok (a + b)
  | _, _ => Err
  end.

Fixpoint kalloc (E : env) (d : nat) (t : ty) (v : fval) {struct d} : res Z :=
  match d with
  | O => Deep
  | S d' =>
    match t with
    | TInt _ w => Ok (Z.of_nat (wbytes w))
    | TFloat db => Ok (if db then 8 else 4)
    | TBool => Ok 1
    | TString => match v with FStr us => Ok (4 + Z.of_nat (length us) * 3) | _ => Err end
    | TTimestamp | TDuration => Ok 12
    | TOption t' =>
      match v with
      | FNone => Ok 1
      | _ => let* n := kalloc E d' t' v in Ok (1 + n)
      end
    | TBox t' => kalloc E d' t' v
    | TVec t' =>
      if is_u8 t' then
        match v with FBytes s => Ok (4 + Z.of_nat (length s)) | _ => Err end
      else
        match v with
        | FSeq vs => let* n := sumZ (map (kalloc E d' t') vs) in Ok (4 + n)
        | _ => Err
        end
    | TMap tk tv =>
      match v with
      | FMap kvs =>
        let* n := sumZ (map (fun p => let* a := kalloc E d' tk (fst p) in
                                      let* b := kalloc E d' tv (snd p) in Ok (a + b)) kvs) in
        Ok (4 + n)
      | _ => Err
      end
    | TSet t' =>
      match v with
      | FSet vs => let* n := sumZ (map (kalloc E d' t') vs) in Ok (4 + n)
      | _ => Err
      end
    | TNamed n =>
      match defs E n with
      | None => Err
      | Some (DRecord ts) =>
        match v with FRec _ vs => kalloc_all (kalloc E d') ts vs | _ => Err end
      | Some (DEnum _ variants) =>
        match v with
        | FEnum _ i vs =>
          match nth_error variants i with
          | Some ts => let* n := kalloc_all (kalloc E d') ts vs in Ok (4 + n)
          | None => Err
          end
        | _ => Err
        end
      | Some (DFlat _ _) => Ok 4
      | Some DObject => Ok 8
      | Some (DCustom b) => kalloc E d' b v
      end
    end
  end.

(** [lowerIntoRustBuffer], FfiConverterTemplate.kt:38-51.  The sizes are ULongs,
    so their sum is taken modulo 2^64; the ByteBuffer has the capacity allocated,
    and a [put] past it throws [BufferOverflowException].  [RustBuffer.alloc] of
    the largest sizes fails in Rust, which is not modelled here (see Buf_Model). *)
Definition klower (E : env) (d : nat) (t : ty) (v : fval) : res (Z * bytes) :=
  let* n := kalloc E d t v in
  let cap := n mod modulus 8 in
  let* bs := fwrite kotlin E d t v in
  if Z.of_nat (length bs) <=? cap then Ok (cap, bs) else Err.
