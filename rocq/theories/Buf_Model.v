(** * Buffers, borrowed bytes and Rust calls

    Models uniffi_core/src/ffi/rustbuffer.rs, foreignbytes.rs and rustcalls.rs over an
    explicit heap of Rust allocations. *)

From Verif Require Import Base.

(** Width of [usize] on the target. *)
Inductive width := W32 | W64.
Definition usize_bound (w : width) : Z := match w with W32 => 4294967296 | W64 => 18446744073709551616 end.
Definition isize_max (w : width) : Z := match w with W32 => 2147483647 | W64 => 9223372036854775807 end.

(** rustbuffer.rs l.53-64; the null pointer is 0. *)
Record rbuf := RB { cap : Z; len : Z; data : Z }.

(** Rust's allocator.  A block is its address and all its bytes, so the length of the
    list is the allocated capacity.  Addresses are never used twice (a simplification:
    a real allocator may, which only hides errors this one reveals); [freed] lists the
    blocks released so far and [ub] records a release the allocator does not allow:
    a block that is not live, or a live one with another capacity. *)
Record heap := mkh { blocks : list (Z * bytes); next : Z; freed : list Z; ub : bool }.
Definition heap0 : heap := mkh [] 16 [] false.

Fixpoint block (p : Z) (l : list (Z * bytes)) : option bytes :=
  match l with
  | [] => None
  | (q, bs) :: l' => if Z.eqb p q then Some bs else block p l'
  end.

Fixpoint unblock (p : Z) (l : list (Z * bytes)) : list (Z * bytes) :=
  match l with
  | [] => []
  | (q, bs) :: l' => if Z.eqb p q then l' else (q, bs) :: unblock p l'
  end.

Definition zlen {A} (l : list A) : Z := Z.of_nat (length l).

Definition alloc (h : heap) (bs : bytes) : heap * Z :=
  (mkh ((next h, bs) :: blocks h) (next h + 1) (freed h) (ub h), next h).

Definition dealloc (h : heap) (p c : Z) : heap :=
  match block p (blocks h) with
  | Some bs =>
      if Z.eqb (zlen bs) c then mkh (unblock p (blocks h)) (next h) (p :: freed h) (ub h)
      else mkh (blocks h) (next h) (freed h) true
  | None => mkh (blocks h) (next h) (freed h) true
  end.

(** ** [Vec<u8>] *)

Record vec := V { vptr : Z; vcap : Z; vlen : Z }.

(** An empty vector owns no block; its pointer is dangling but not null. *)
Definition empty_vec : vec := V 1 0 0.

(** What an allocation holds before it is written to. *)
Definition filler : byte := xcd.

(** A vector holding [bs] with [extra] spare bytes. *)
Definition new_vec (h : heap) (bs : bytes) (extra : nat) : heap * vec :=
  match bs ++ repeat filler extra with
  | [] => (h, empty_vec)
  | all => let (h', p) := alloc h all in (h', V p (zlen all) (zlen bs))
  end.

Definition vec_bytes (h : heap) (v : vec) : bytes :=
  match block (vptr v) (blocks h) with
  | Some bs => firstn (Z.to_nat (vlen v)) bs
  | None => []
  end.

Definition drop_vec (h : heap) (v : vec) : heap :=
  if Z.eqb (vcap v) 0 then h else dealloc h (vptr v) (vcap v).

(** ** Panics *)

(** A panic payload: a [&'static str], a [String] or anything else.  Dropping a [Bomb]
    panics in turn, with the given payload. *)
Inductive pkind := KStr (m : bytes) | KString (m : bytes) | KOther.
Inductive payload := Plain (k : pkind) | Bomb (k : pkind) (q : payload).

Definition kind (p : payload) : pkind := match p with Plain k => k | Bomb k _ => k end.

Definition lit (s : string) : bytes := list_byte_of_string s.

(** rustcalls.rs l.230-236 *)
Definition message (p : payload) : bytes :=
  match kind p with
  | KStr m => m
  | KString m => m
  | KOther => lit "Unknown panic!"
  end.

(** [assert!(.., "literal")] and [panic!("literal")] carry a [&'static str];
    [Result::expect] formats a [String] that ends with the error. *)
Definition assertion (s : string) : payload := Plain (KStr (lit s)).
Definition expect (s : string) : payload := Plain (KString (lit (s ++ ": TryFromIntError(())"))).

(** Outcome of Rust code that may panic. *)
Inductive out (A : Type) := Done (a : A) | Panics (p : payload).
Arguments Done {A}. Arguments Panics {A}.

(** ** RustBuffer *)

(** rustbuffer.rs l.146-151: [from_vec]; on these targets a [usize] always fits a [u64]. *)
Definition from_vec (v : vec) : rbuf := RB (vcap v) (vlen v) (vptr v).

(** rustbuffer.rs l.163-183: [destroy_into_vec] *)
Definition destroy_into_vec (w : width) (b : rbuf) : out vec :=
  if Z.eqb (data b) 0 then
    if negb (Z.eqb (cap b) 0) then Panics (assertion "null RustBuffer had non-zero capacity")
    else if negb (Z.eqb (len b) 0) then Panics (assertion "null RustBuffer had non-zero length")
    else Done empty_vec
  else if Z.leb (usize_bound w) (cap b) then Panics (expect "buffer capacity negative or overflowed")
  else if Z.leb (usize_bound w) (len b) then Panics (expect "buffer length negative or overflowed")
  else if negb (Z.leb (len b) (cap b)) then Panics (assertion "RustBuffer length exceeds capacity")
  else Done (V (data b) (cap b) (len b)).

(** rustbuffer.rs l.133-135: [new_with_size]; [as usize] truncates, and [vec!] panics
    beyond [isize::MAX] bytes. *)
Definition new_with_size (w : width) (size : Z) (h : heap) : heap * out rbuf :=
  let n := (size mod usize_bound w)%Z in
  if Z.ltb (isize_max w) n then (h, Panics (assertion "capacity overflow"))
  else let (h', v) := new_vec h (repeat x00 (Z.to_nat n)) 0 in (h', Done (from_vec v)).

(** [Vec::reserve]: grows to at least the requested capacity, [extra] bytes more being
    the allocator's choice; panics beyond [isize::MAX], which drops the vector. *)
Definition reserve (w : width) (h : heap) (v : vec) (additional : Z) (extra : nat) : heap * out vec :=
  if Z.leb additional (vcap v - vlen v) then (h, Done v)
  else if Z.ltb (isize_max w) (vlen v + additional) then (drop_vec h v, Panics (assertion "capacity overflow"))
  else
    let bs := vec_bytes h v in
    let (h1, v') := new_vec h bs (Z.to_nat additional + extra) in
    (drop_vec h1 v, Done v').

(** ** Borrowed foreign bytes *)

(** foreignbytes.rs l.26-33 and l.115-120: [ForeignBytes], [ForeignBytesMut]; the length is an [i32]. *)
Record fbytes := FB { flen : Z; fdata : Z }.

(** Foreign memory. *)
Definition mem := Z -> byte.

Fixpoint read_mem (m : mem) (p : Z) (n : nat) : bytes :=
  match n with
  | O => []
  | S n' => m p :: read_mem m (p + 1) n'
  end.

Fixpoint write_mem (m : mem) (p : Z) (bs : bytes) : mem :=
  match bs with
  | [] => m
  | b :: bs' => write_mem (fun q => if Z.eqb q p then b else m q) (p + 1) bs'
  end.

(** foreignbytes.rs l.53-60, l.67-71: [as_slice], [len]; l.140-147, l.170-174 are the same
    for [ForeignBytesMut] up to the name in the message ([ty]). *)
Definition as_slice (ty : string) (m : mem) (d : fbytes) : out bytes :=
  if Z.eqb (fdata d) 0 then
    if negb (Z.eqb (flen d) 0) then Panics (assertion ("null " ++ ty ++ " had non-zero length"))
    else Done []
  else if Z.ltb (flen d) 0 then Panics (expect "bytes length negative or overflowed")
  else Done (read_mem m (fdata d) (Z.to_nat (flen d))).

(** foreignbytes.rs l.156-163: Rust code [f] works on [as_mut_slice]; a slice cannot change
    its length, so what [f] leaves behind is cut or padded to the slice. *)
Definition resize (n : nat) (old new : bytes) : bytes := firstn n (new ++ skipn (length new) old).

Definition with_mut_slice {A} (m : mem) (d : fbytes) (f : bytes -> bytes * A) : mem * out A :=
  match as_slice "ForeignBytesMut" m d with
  | Panics p => (m, Panics p)
  | Done bs =>
      let (bs', a) := f bs in
      (write_mem m (fdata d) (resize (length bs) bs bs'), Done a)
  end.

(** ** Rust calls *)

(** rustcalls.rs l.43-54 *)
Record status := ST { code : Z; error_buf : rbuf }.

(** rustcalls.rs l.84-100 *)
Definition Success : Z := 0.
Definition Error : Z := 1.
Definition UnexpectedError : Z := 2.
Definition Cancelled : Z := 3.

(** What the callback of [rust_call] produces: rustcalls.rs l.120-129. *)
Inductive cres (A : Type) := CVal (a : A) | CErr (b : rbuf) | CInternal (msg : bytes) | CPanic (p : payload).
Arguments CVal {A}. Arguments CErr {A}. Arguments CInternal {A}. Arguments CPanic {A}.

(** The call either returns to the foreign code or unwinds, which aborts the process. *)
Inductive ret (A : Type) := Returned (s : status) (r : A) | Unwound.
Arguments Returned {A}. Arguments Unwound {A}.

(** ffi_converter_impls.rs l.129-131: lowering a [String] hands over its bytes. *)
Definition lower_string (h : heap) (m : bytes) : heap * rbuf :=
  let (h', v) := new_vec h m 0 in (h', from_vec v).

(** rustcalls.rs l.200-251: [rust_call_with_out_status]. *)
Definition rust_call_with_out_status {A} (st : status) (callback : heap -> heap * cres A) (h : heap)
  : heap * ret (option A) :=
  let (h1, r) := callback h in
  match r with
  | CVal v => (h1, Returned st (Some v))
  | CErr b => (h1, Returned (ST Error b) None)
  | CInternal msg => let (h2, b) := lower_string h1 msg in (h2, Returned (ST UnexpectedError b) None)
  | CPanic p =>
      let (h2, b) := lower_string h1 (message p) in
      match p with
      | Plain _ => (h2, Returned (ST UnexpectedError b) None)
      | Bomb _ (Plain _) =>
          (* dropping the payload panicked inside the second catch_unwind: the buffer is lost *)
          (h2, Returned (ST UnexpectedError (error_buf st)) None)
      | Bomb _ (Bomb _ _) => (h2, Unwound)
      end
  end.

(** rustcalls.rs l.164-170: [rust_call]. *)
Definition rust_call {A} (dflt : A) (st : status) (callback : heap -> heap * cres A) (h : heap) : heap * ret A :=
  match rust_call_with_out_status st callback h with
  | (h', Returned s (Some v)) => (h', Returned s v)
  | (h', Returned s None) => (h', Returned s dflt)
  | (h', Unwound) => (h', Unwound)
  end.

(** ffidefault.rs l.50-54: the default [RustBuffer]. *)
Definition null_buf : rbuf := RB 0 0 0.

Definition to_cres {A} (r : heap * out A) : heap * cres A :=
  match r with
  | (h, Done a) => (h, CVal a)
  | (h, Panics p) => (h, CPanic p)
  end.

(** rustbuffer.rs l.211-213 *)
Definition rustbuffer_alloc (w : width) (size : Z) (st : status) (h : heap) : heap * ret rbuf :=
  rust_call null_buf st (fun h => to_cres (new_with_size w size h)) h.

(** rustbuffer.rs l.223-231 *)
Definition rustbuffer_from_bytes (m : mem) (d : fbytes) (st : status) (h : heap) : heap * ret rbuf :=
  rust_call null_buf st (fun h =>
    match as_slice "ForeignBytes" m d with
    | Panics p => (h, CPanic p)
    | Done bs => let (h', v) := new_vec h bs 0 in (h', CVal (from_vec v))
    end) h.

(** rustbuffer.rs l.239-244 *)
Definition rustbuffer_free (w : width) (b : rbuf) (st : status) (h : heap) : heap * ret unit :=
  rust_call tt st (fun h =>
    match destroy_into_vec w b with
    | Panics p => (h, CPanic p)
    | Done v => (drop_vec h v, CVal tt)
    end) h.

(** rustbuffer.rs l.261-274 *)
Definition rustbuffer_reserve (w : width) (b : rbuf) (additional : Z) (extra : nat) (st : status) (h : heap)
  : heap * ret rbuf :=
  rust_call null_buf st (fun h =>
    if Z.leb (usize_bound w) additional then (h, CPanic (expect "additional buffer length negative or overflowed"))
    else
      match destroy_into_vec w b with
      | Panics p => (h, CPanic p)
      | Done v =>
          match reserve w h v additional extra with
          | (h', Panics p) => (h', CPanic p)
          | (h', Done v') => (h', CVal (from_vec v'))
          end
      end) h.

(** ffi_converter_traits.rs l.231-239: [try_lift_from_rust_buffer] reads the bytes of the
    buffer and drops it, whatever the reader says.  Here the reader is any function. *)
Definition lift_with {A} (w : width) (reader : bytes -> out A) (b : rbuf) (h : heap) : heap * out A :=
  match destroy_into_vec w b with
  | Panics p => (h, Panics p)
  | Done v => (drop_vec h v, reader (vec_bytes h v))
  end.

(** ** A history of buffers *)

(** The foreign code holds buffers (oldest first).  Each operation is a call through
    the FFI with a fresh status, a write through the data pointer, or a buffer that Rust
    hands over.  Error buffers of failed calls are held as well. *)
Record world := mkw { hp : heap; held : list rbuf }.
Definition world0 : world := mkw heap0 [].

Inductive bogus := BFree | BReserve (additional : Z) | BLift.

Inductive op :=
| Empty                                          (* a null buffer made by the foreign code *)
| Alloc (size : Z)
| FromBytes (m : mem) (d : fbytes)
| Lower (bs : bytes) (extra : nat)               (* ffi_converter_traits.rs l.266-270 *)
| Write (i : nat) (off : nat) (bs : bytes)
| Truncate (i : nat) (n : nat)
| Reserve (i : nat) (additional : Z) (extra : nat)
| Lift (i : nat)
| Free (i : nat)
| Bogus (k : bogus) (b : rbuf).

Inductive result := RBuffer | RBytes (bs : bytes) | RUnit | RRefused (code : Z).

Fixpoint remove_nth {A} (i : nat) (l : list A) : list A :=
  match l, i with
  | [], _ => []
  | _ :: l', O => l'
  | x :: l', S i' => x :: remove_nth i' l'
  end.

Fixpoint update_nth {A} (i : nat) (y : A) (l : list A) : list A :=
  match l, i with
  | [], _ => []
  | _ :: l', O => y :: l'
  | x :: l', S i' => x :: update_nth i' y l'
  end.

(** The status every binding starts a call with. *)
Definition fresh : status := ST Success null_buf.

(** A call that returned: a success appends [ok], a failure appends the error buffer. *)
Definition finish {A} (r : heap * ret A) (l_ok l_bad : list rbuf) (ok : A -> list rbuf) (o : A -> result)
  : option (world * result) :=
  match r with
  | (h, Unwound) => None
  | (h, Returned s a) =>
      if Z.eqb (code s) Success then Some (mkw h (l_ok ++ ok a), o a)
      else Some (mkw h (l_bad ++ [error_buf s]), RRefused (code s))
  end.

(** Writing through the data pointer. *)
Fixpoint reblock (p : Z) (bs : bytes) (l : list (Z * bytes)) : list (Z * bytes) :=
  match l with
  | [] => []
  | (q, old) :: l' => if Z.eqb p q then (q, bs) :: l' else (q, old) :: reblock p bs l'
  end.

Definition splice (off : nat) (bs old : bytes) : bytes := firstn off old ++ bs ++ skipn (off + length bs) old.

(** [malformed]: a header no [Vec] could have produced.  *)
Definition malformed (w : width) (b : rbuf) : bool :=
  if Z.eqb (data b) 0 then negb (Z.eqb (cap b) 0 && Z.eqb (len b) 0)
  else Z.leb (usize_bound w) (cap b) || Z.leb (usize_bound w) (len b) || Z.ltb (cap b) (len b).

Definition is_i32 (z : Z) : bool := Z.leb (-2147483648) z && Z.leb z 2147483647.
Definition is_u64 (z : Z) : bool := Z.leb 0 z && Z.ltb z 18446744073709551616.

(** [None]: the foreign code breaks its side of the contract (a buffer it does not hold, a
    write outside the capacity) or a vector larger than [isize::MAX] is asked for. *)
Definition step (w : width) (s : world) (x : op) : option (world * result) :=
  match x with
  | Empty => Some (mkw (hp s) (held s ++ [null_buf]), RBuffer)
  | Alloc size =>
      if negb (is_u64 size) then None else
      finish (rustbuffer_alloc w size fresh (hp s)) (held s) (held s) (fun b => [b]) (fun _ => RBuffer)
  | FromBytes m d =>
      if negb (is_i32 (flen d)) then None else
      finish (rustbuffer_from_bytes m d fresh (hp s)) (held s) (held s) (fun b => [b]) (fun _ => RBuffer)
  | Lower bs extra =>
      if Z.ltb (isize_max w) (zlen bs + Z.of_nat extra) then None else
      let (h, v) := new_vec (hp s) bs extra in Some (mkw h (held s ++ [from_vec v]), RBuffer)
  | Write i off bs =>
      match nth_error (held s) i with
      | None => None
      | Some b =>
          if Z.ltb (len b) (Z.of_nat off) then None
          else if Z.ltb (cap b) (Z.of_nat off + zlen bs) then None
          else
            let h := hp s in
            let bl := match block (data b) (blocks h) with
                      | Some old => reblock (data b) (splice off bs old) (blocks h)
                      | None => blocks h
                      end in
            Some (mkw (mkh bl (next h) (freed h) (ub h))
                      (update_nth i (RB (cap b) (Z.max (len b) (Z.of_nat off + zlen bs)) (data b)) (held s)), RUnit)
      end
  | Truncate i n =>
      match nth_error (held s) i with
      | None => None
      | Some b =>
          if Z.ltb (len b) (Z.of_nat n) then None
          else Some (mkw (hp s) (update_nth i (RB (cap b) (Z.of_nat n) (data b)) (held s)), RUnit)
      end
  | Reserve i additional extra =>
      if negb (is_u64 additional) then None else
      match nth_error (held s) i with
      | None => None
      | Some b =>
          if Z.leb additional (isize_max w - len b) && Z.ltb (isize_max w) (len b + additional + Z.of_nat extra) then None else
          let rest := remove_nth i (held s) in
          (* a failing call has consumed the buffer unless the size did not fit a usize *)
          finish (rustbuffer_reserve w b additional extra fresh (hp s))
            rest (if Z.leb (usize_bound w) additional then held s else rest) (fun b => [b]) (fun _ => RBuffer)
      end
  | Lift i =>
      match nth_error (held s) i with
      | None => None
      | Some b =>
          finish (rust_call [] fresh (fun h => to_cres (lift_with w Done b h)) (hp s))
            (remove_nth i (held s)) (held s) (fun _ => []) RBytes
      end
  | Free i =>
      match nth_error (held s) i with
      | None => None
      | Some b =>
          finish (rustbuffer_free w b fresh (hp s)) (remove_nth i (held s)) (held s) (fun _ => []) (fun _ => RUnit)
      end
  | Bogus k b =>
      if negb (malformed w b && is_u64 (cap b) && is_u64 (len b)) then None else
      match k with
      | BFree => finish (rustbuffer_free w b fresh (hp s)) (held s) (held s) (fun _ => []) (fun _ => RUnit)
      | BReserve n =>
          if negb (is_u64 n) then None else
          finish (rustbuffer_reserve w b n 0 fresh (hp s)) (held s) (held s) (fun b => [b]) (fun _ => RBuffer)
      | BLift => finish (rust_call [] fresh (fun h => to_cres (lift_with w Done b h)) (hp s)) (held s) (held s) (fun _ => []) RBytes
      end
  end.

Fixpoint run (w : width) (s : world) (xs : list op) : option (world * list result) :=
  match xs with
  | [] => Some (s, [])
  | x :: xs' =>
      match step w s x with
      | None => None
      | Some (s', r) =>
          match run w s' xs' with
          | None => None
          | Some (s'', rs) => Some (s'', r :: rs)
          end
      end
  end.
