(** Passing FFI values in buffers of 64-bit elements: uniffi_core/src/ffi/ffiserialize.rs and the
    scaffolding that uses it, uniffi_macros/src/export/scaffolding.rs l.322-372. *)
From Verif Require Import Base.
Local Open Scope Z_scope.

(** ffiserialize.rs l.14-28 [FfiBufferElement]: a union of eight bytes, taken as the number they form
    on a little-endian machine with 64-bit pointers. *)
Definition elt := Z.

(** Writing a union field of [w] bits leaves the other bits. *)
Definition put_bits (w : Z) (e : elt) (v : Z) : elt := e / 2 ^ w * 2 ^ w + v mod 2 ^ w.
Definition get_unsigned (w : Z) (e : elt) : Z := e mod 2 ^ w.
Definition get_signed (w : Z) (e : elt) : Z :=
  let v := e mod 2 ^ w in if v <? 2 ^ (w - 1) then v else v - 2 ^ w.

(** The FFI types that have an implementation, l.102-272.  [ForeignBytesMut] is as [FBytes] and
    [NonNull] as [FPtr]. *)
Inductive width := W8 | W16 | W32 | W64.
Inductive fty :=
| FUnsigned (w : width) | FSigned (w : width)
| FFloat | FDouble | FBool | FUnit | FPtr | FHandle
| FBuffer | FBytes | FStatus.

(** Values of these types; floating-point numbers are their bit patterns. *)
Inductive fval :=
| VInt (z : Z)
| VBits (z : Z)
| VBool (b : bool)
| VUnit
| VPtr (z : Z)
| VBuffer (capacity len data : Z)
| VBytes (len data : Z)
| VStatus (code capacity len data : Z).

Definition bits (w : width) : Z := match w with W8 => 8 | W16 => 16 | W32 => 32 | W64 => 64 end.

(** The constants [SIZE]. *)
Definition size (t : fty) : nat :=
  match t with
  | FUnit => 0
  | FBuffer => 3
  | FBytes => 2
  | FStatus => 4
  | _ => 1
  end.

(** [buf[i]], which panics out of bounds. *)
Definition at_ (buf : list elt) (i : nat) : res elt :=
  match nth_error buf i with Some e => Ok e | None => Panic end.
Fixpoint set_ (buf : list elt) (i : nat) (f : elt -> elt) : res (list elt) :=
  match buf, i with
  | [], _ => Panic
  | e :: buf, 0%nat => Ok (f e :: buf)
  | e :: buf, S i => bind (set_ buf i f) (fun buf => Ok (e :: buf))
  end.

(** [RustCallStatusCode::try_from(code).unwrap_or(UnexpectedError)], l.262; rustcalls.rs l.103-115. *)
Definition status_code (code : Z) : Z := if (0 <=? code) && (code <=? 3) then code else 2.

(** l.212-216 [RustBuffer::get] of the elements from [i] on. *)
Definition get_buffer (buf : list elt) (i : nat) : res (Z * Z * Z) :=
  bind (at_ buf i) (fun c => bind (at_ buf (S i)) (fun l => bind (at_ buf (S (S i))) (fun d =>
  Ok (get_unsigned 64 c, get_unsigned 64 l, get_unsigned 64 d)))).

(** The functions [get]. *)
Definition get (t : fty) (buf : list elt) : res fval :=
  match t with
  | FUnsigned w => bind (at_ buf 0) (fun e => Ok (VInt (get_unsigned (bits w) e)))
  | FSigned w => bind (at_ buf 0) (fun e => Ok (VInt (get_signed (bits w) e)))
  | FFloat => bind (at_ buf 0) (fun e => Ok (VBits (get_unsigned 32 e)))
  | FDouble => bind (at_ buf 0) (fun e => Ok (VBits (get_unsigned 64 e)))
  | FBool => bind (at_ buf 0) (fun e => Ok (VBool (get_signed 8 e =? 1)))
  | FUnit => Ok VUnit
  | FPtr | FHandle => bind (at_ buf 0) (fun e => Ok (VPtr (get_unsigned 64 e)))
  | FBuffer => bind (get_buffer buf 0) (fun b => let '(c, l, d) := b in Ok (VBuffer c l d))
  | FBytes =>
      bind (at_ buf 0) (fun l => bind (at_ buf 1) (fun d =>
      Ok (VBytes (get_signed 32 l) (get_unsigned 64 d))))
  | FStatus =>
      bind (at_ buf 0) (fun c => bind (get_buffer buf 1) (fun b =>
      let '(cap, l, d) := b in Ok (VStatus (status_code (get_signed 8 c)) cap l d)))
  end.

Definition put_buffer (buf : list elt) (i : nat) (c l d : Z) : res (list elt) :=
  bind (set_ buf i (fun e => put_bits 64 e c)) (fun buf =>
  bind (set_ buf (S i) (fun e => put_bits 64 e l)) (fun buf =>
  set_ buf (S (S i)) (fun e => put_bits 64 e d))).

(** The functions [put].  A value of another type cannot be passed: [Err]. *)
Definition put (t : fty) (buf : list elt) (v : fval) : res (list elt) :=
  match t, v with
  | FUnsigned w, VInt z | FSigned w, VInt z => set_ buf 0 (fun e => put_bits (bits w) e z)
  | FFloat, VBits z => set_ buf 0 (fun e => put_bits 32 e z)
  | FDouble, VBits z => set_ buf 0 (fun e => put_bits 64 e z)
  | FBool, VBool b => set_ buf 0 (fun e => put_bits 8 e (if b then 1 else 0))
  | FUnit, VUnit => Ok buf
  | FPtr, VPtr z | FHandle, VPtr z => set_ buf 0 (fun e => put_bits 64 e z)
  | FBuffer, VBuffer c l d => put_buffer buf 0 c l d
  | FBytes, VBytes l d =>
      bind (set_ buf 0 (fun e => put_bits 32 e l)) (fun buf => set_ buf 1 (fun e => put_bits 64 e d))
  | FStatus, VStatus code c l d =>
      bind (set_ buf 0 (fun e => put_bits 8 e code)) (fun buf => put_buffer buf 1 c l d)
  | _, _ => Err
  end.

(** l.74-78 [read]: [&buf[SIZE..]] panics if the slice is too short. *)
Definition read (t : fty) (buf : list elt) : res (fval * list elt) :=
  bind (get t buf) (fun v =>
  if (size t <=? length buf)%nat then Ok (v, skipn (size t) buf) else Panic).

(** l.83-88 [write]: [split_at_mut(SIZE)] panics likewise.  The result is the part written and the
    slice that is left. *)
Definition write (t : fty) (buf : list elt) (v : fval) : res (list elt * list elt) :=
  bind (put t buf v) (fun buf =>
  if (size t <=? length buf)%nat then Ok (firstn (size t) buf, skipn (size t) buf) else Panic).

(** A sequence of reads, and of writes on a buffer; the result of the latter is the buffer
    afterwards. *)
Fixpoint read_all (ts : list fty) (buf : list elt) : res (list fval) :=
  match ts with
  | [] => Ok []
  | t :: ts => bind (read t buf) (fun vb => bind (read_all ts (snd vb)) (fun vs => Ok (fst vb :: vs)))
  end.
Fixpoint write_all (tvs : list (fty * fval)) (buf : list elt) : res (list elt) :=
  match tvs with
  | [] => Ok buf
  | (t, v) :: tvs =>
      bind (write t buf v) (fun b => bind (write_all tvs (snd b)) (fun rest => Ok (fst b ++ rest)))
  end.

(** l.91-102 [ffi_buffer_size!]. *)
Fixpoint ffi_buffer_size (ts : list fty) : nat :=
  match ts with [] => 0%nat | t :: ts => (size t + ffi_buffer_size ts)%nat end.

(** [slice::from_raw_parts(ptr, n)]: memory of fewer than [n] elements may not be passed: [Err]. *)
Definition from_raw_parts (mem : list elt) (n : nat) : res (list elt) :=
  if (n <=? length mem)%nat then Ok (firstn n mem) else Err.

(** scaffolding.rs l.333-355: a scaffolding function [f] that takes values of types [args] and returns
    one of type [ret], with the status it sets.  The result is the return memory afterwards. *)
Definition buffer_fn (args : list fty) (ret : fty) (f : list fval -> fval * fval)
    (arg_mem ret_mem : list elt) : res (list elt) :=
  bind (from_raw_parts arg_mem (ffi_buffer_size args)) (fun arg_buf =>
  let n := ffi_buffer_size [ret; FStatus] in
  bind (from_raw_parts ret_mem n) (fun ret_buf =>
  bind (read_all args arg_buf) (fun vs =>
  let (value, status) := f vs in
  bind (write_all [(ret, value); (FStatus, status)] ret_buf) (fun ret_buf =>
  Ok (ret_buf ++ skipn n ret_mem))))).

(** scaffolding.rs l.356-372: the same for one without a status (asynchronous functions). *)
Definition buffer_fn_no_status (args : list fty) (ret : fty) (f : list fval -> fval)
    (arg_mem ret_mem : list elt) : res (list elt) :=
  bind (from_raw_parts arg_mem (ffi_buffer_size args)) (fun arg_buf =>
  let n := ffi_buffer_size [ret] in
  bind (from_raw_parts ret_mem n) (fun ret_buf =>
  bind (read_all args arg_buf) (fun vs =>
  bind (put ret ret_buf (f vs)) (fun ret_buf => Ok (ret_buf ++ skipn n ret_mem))))).
