(** The calling convention of the JNI bindings for Kotlin: layouts of FFI buffers, deconstruction of
    values into FFI values, and the code generated on both sides.
    uniffi-bindgen-kotlin-jni/src/pipeline, .../src/scaffolding/templates (Rust side),
    .../src/bindings/templates/shared (Kotlin side), .../runtime/src/lift_lower.rs and
    uniffi_core/src/ffi/ffibuffer.rs. *)
From Verif Require Import Base Meta_Types Sort_Model.
Local Open Scope list_scope.
Local Open Scope Z_scope.

(** ** Outcomes *)

(** How generating code, compiling it, or running it can fail. *)
Inductive fail :=
| Refused   (** an error returned by the generator, or an error or exception at run time *)
| NoCode    (** the generated code does not compile: a function is missing or has another type *)
| Undefined (** undefined behaviour: memory used outside an allocation, misaligned, uninitialised,
                after it was freed, or freed with another size *)
| NoMemory
| TooDeep.  (** recursion deeper than the depth the computation was given *)

Inductive out (A : Type) := Ret (a : A) | Bad (f : fail).
Arguments Ret {A} a.
Arguments Bad {A} f.

Definition obind {A B} (x : out A) (f : A -> out B) : out B :=
  match x with Ret a => f a | Bad e => Bad e end.
Notation "x <-- e ;;; k" := (obind e (fun x => k)) (at level 60, e at level 50, right associativity).

Definition of_opt {A} (e : fail) (o : option A) : out A :=
  match o with Some a => Ret a | None => Bad e end.

Fixpoint omap {A B} (f : A -> out B) (l : list A) : out (list B) :=
  match l with
  | [] => Ret []
  | a :: l => b <-- f a ;;; bs <-- omap f l ;;; Ret (b :: bs)
  end.

Fixpoint lookup {A} (t : ty) (m : list (ty * A)) : option A :=
  match m with
  | [] => None
  | (t', a) :: m => if ty_eqb t t' then Some a else lookup t m
  end.

(** ** Layouts: src/pipeline/ffi_buffer.rs *)

(** [std::alloc::Layout]. *)
Record layout := Layout { l_size : Z; l_align : Z }.

Definition isize_max : Z := 2 ^ 63 - 1.

(** The least multiple of [a] that is not below [s]. *)
Definition round_up (s a : Z) : Z := (s + a - 1) / a * a.

(** [Layout::from_size_align]: the size rounded up to the alignment must not overflow an [isize].
    (Alignments are powers of two throughout, so that check is left out.) *)
Definition layout_new (s a : Z) : out layout :=
  if round_up s a <=? isize_max then Ret (Layout s a) else Bad Refused.

(** ffi_buffer.rs l.19-23 [FfiBufferLayoutBuilder::new]. *)
Definition builder_new : layout := Layout 0 1.

(** ffi_buffer.rs l.38-42 [extend_with_layout], over [Layout::extend]: the new layout and the offset
    of the part that was added. *)
Definition extend (l nx : layout) : out (layout * Z) :=
  let off := round_up (l_size l) (l_align nx) in
  l' <-- layout_new (off + l_size nx) (Z.max (l_align l) (l_align nx)) ;;;
  Ret (l', off).

(** ffi_buffer.rs l.44-46 [pad_to_align]. *)
Definition pad_to_align (l : layout) : layout := Layout (round_up (l_size l) (l_align l)) (l_align l).

(** ffi_buffer.rs l.51-54 [layout_map]. *)
Definition lmap := list (ty * layout).

(** ffi_buffer.rs l.58-81 [FfiBufferLayoutOracle::get]. *)
Fixpoint get (m : lmap) (t : ty) : out layout :=
  match t with
  | TU8 | TI8 | TBool => Ret (Layout 1 1)
  | TU16 | TI16 => Ret (Layout 2 2)
  | TU32 | TI32 | TF32 => Ret (Layout 4 4)
  | TU64 | TI64 | TF64 => Ret (Layout 8 8)
  | TObject _ _ _ => Ret (Layout 8 8)
  | TString => Ret (Layout 24 8)
  | TSeq _ | TMap _ _ | TSet _ => Ret (Layout 16 8)
  | TBox _ => Ret (Layout 8 8)
  | TCustom _ _ b => get m b
  | _ => of_opt Refused (lookup t m)
  end.

(** The layout builder run over the fields of a record or variant: the field types with their
    offsets, and the layout.  ffi_buffer.rs l.102-108 [layout_for_types] keeps the layout;
    records.rs l.21-51 and enums.rs l.86-117 [map_fields] keep the offsets. *)
Fixpoint offsets (m : lmap) (l : layout) (ts : list ty) : out (list (Z * ty) * layout) :=
  match ts with
  | [] => Ret ([], l)
  | t :: ts =>
      lt <-- get m t ;;;
      x <-- extend l lt ;;;
      r <-- offsets m (fst x) ts ;;;
      Ret ((snd x, t) :: fst r, snd r)
  end.

Definition layout_for_types (m : lmap) (ts : list ty) : out layout :=
  r <-- offsets m builder_new ts ;;; Ret (snd r).

(** ffi_buffer.rs l.120-126: the size and the alignment of an enum, over its variants. *)
Fixpoint enum_size (m : lmap) (vs : list (list ty)) (s a : Z) : out (Z * Z) :=
  match vs with
  | [] => Ret (s, a)
  | v :: vs =>
      l <-- layout_for_types m (TI32 :: v) ;;;
      enum_size m vs (Z.max s (l_size l)) (Z.max a (l_align l))
  end.

(** ffi_buffer.rs l.110-139 [add_record], [add_enum], [add_optional]. *)
Definition def_layout (m : lmap) (d : type_definition) : out (option layout) :=
  match d with
  | TDRecord _ fs => l <-- layout_for_types m fs ;;; Ret (Some l)
  | TDEnum _ vs =>
      x <-- enum_size m vs 0 1 ;;;
      l <-- layout_new (fst x) (snd x) ;;; Ret (Some l)
  | TDOptional _ i => l <-- layout_for_types m [TBool; i] ;;; Ret (Some l)
  | _ => Ret None
  end.

(** ffi_buffer.rs l.83-100 [add_type_definitions]. *)
Fixpoint build_layouts (m : lmap) (ds : list type_definition) : out lmap :=
  match ds with
  | [] => Ret m
  | d :: ds =>
      match lookup (self_type d) m with
      | Some _ => build_layouts m ds
      | None =>
          o <-- def_layout m d ;;;
          match o with
          | Some l => build_layouts ((self_type d, l) :: m) ds
          | None => build_layouts m ds
          end
      end
  end.

(** compounds.rs l.19-71 [map_sequence], [map_set], [map_map]: the size of an item, and the parts an
    item is made of with their offsets. *)
Definition item_of (m : lmap) (ts : list ty) : out (Z * list (Z * ty)) :=
  r <-- offsets m builder_new ts ;;;
  Ret (l_size (pad_to_align (snd r)), fst r).

Definition coll_parts (t : ty) : option (list ty) :=
  match t with
  | TSeq i | TSet i => Some [i]
  | TMap k v => Some [k; v]
  | _ => None
  end.

(** ** FFI types: src/pipeline/ffi_types.rs *)

(** nodes.rs [FfiType]. *)
Inductive fty :=
| FtInt8 | FtInt16 | FtInt32 | FtInt64 | FtFloat32 | FtFloat64 | FtBoolean | FtString
| FtByteArray | FtShortArray | FtIntArray | FtLongArray | FtFloatArray | FtDoubleArray
| FtByteBuffer.

Scheme Equality for fty.

(** ffi_types.rs l.28-36 and compounds.rs l.24-36: sequences of these are passed as JVM arrays. *)
Definition array_type (t : ty) : option fty :=
  match t with
  | TI8 | TU8 => Some FtByteArray
  | TI16 | TU16 => Some FtShortArray
  | TI32 | TU32 => Some FtIntArray
  | TI64 | TU64 => Some FtLongArray
  | TF32 => Some FtFloatArray
  | TF64 => Some FtDoubleArray
  | _ => None
  end.

(** ffi_types.rs l.11-67 [standard_ffi_type_mapping]. *)
Definition standard (t : ty) : option (list fty) :=
  match t with
  | TI8 | TU8 => Some [FtInt8]
  | TI16 | TU16 => Some [FtInt16]
  | TI32 | TU32 => Some [FtInt32]
  | TI64 | TU64 => Some [FtInt64]
  | TF32 => Some [FtFloat32]
  | TF64 => Some [FtFloat64]
  | TBool => Some [FtBoolean]
  | TString => Some [FtString]
  | TDuration | TTimestamp => Some [FtInt64; FtInt32]
  | TBytes => Some [FtByteArray]
  | TSeq i => match array_type i with Some a => Some [a] | None => Some [FtByteBuffer] end
  | TMap _ _ | TSet _ => Some [FtByteBuffer]
  | TObject _ _ _ | TCallback _ _ => Some [FtInt64]
  | TBox _ => Some [FtInt64]
  | TOption i =>
      match i with
      | TU8 | TI8 | TU16 | TI16 | TU32 | TI32 | TBool => Some [FtInt64]
      | TF32 => Some [FtInt32]
      | TF64 => Some [FtInt64]
      | TString => Some [FtString]
      | TSeq TBytes => Some [FtByteArray]
      | TObject _ _ _ | TCallback _ _ => Some [FtInt64]
      | _ => None
      end
  | _ => None
  end.

(** ffi_types.rs l.71-74 [user_type_map]; a later entry replaces an earlier one. *)
Definition fmap := list (ty * list fty).

(** ffi_types.rs l.77-85 [get_ffi_types]. *)
Definition ffi_types (f : fmap) (t : ty) : out (list fty) :=
  match standard t with
  | Some l => Ret l
  | None => of_opt Refused (lookup t f)
  end.

Definition ffi_types_all (f : fmap) (ts : list ty) : out (list fty) :=
  r <-- omap (ffi_types f) ts ;;; Ret (concat r).

Fixpoint mem_fty (t : fty) (l : list fty) : bool :=
  match l with [] => false | x :: l => fty_beq t x || mem_fty t l end.

(** ffi_types.rs l.120-126: [existing] is a [HashSet], kept as a list without repetitions. *)
Fixpoint to_set (l : list fty) : list fty :=
  match l with
  | [] => []
  | x :: l => if mem_fty x l then to_set l else x :: to_set l
  end.

Definition set_remove (t : fty) (l : list fty) : list fty :=
  filter (fun x => negb (fty_beq t x)) l.

Fixpoint add_fields (existing fields all : list fty) : list fty :=
  match fields with
  | [] => all
  | t :: fields =>
      if mem_fty t existing then add_fields (set_remove t existing) fields all
      else add_fields existing fields (all ++ [t])
  end.

(** ffi_types.rs l.113-127: the variants of an enum. *)
Fixpoint enum_ffi (f : fmap) (vs : list (list ty)) (all : list fty) : out (list fty) :=
  match vs with
  | [] => Ret all
  | v :: vs =>
      fields <-- ffi_types_all f v ;;;
      enum_ffi f vs (add_fields (to_set (tl all)) fields all)
  end.

(** ffi_types.rs l.92-145: one definition.  [flat] says which enums are flat errors
    ([EnumShape::Error { flat: true }]). *)
Definition def_ffi (flat : ty -> bool) (f : fmap) (d : type_definition) : out (option (list fty)) :=
  match d with
  | TDRecord _ fs => l <-- ffi_types_all f fs ;;; Ret (Some l)
  | TDEnum self vs =>
      if flat self then Ret (Some [FtInt32; FtString])
      else l <-- enum_ffi f vs [FtInt32] ;;; Ret (Some l)
  | TDOptional self i =>
      match standard self with
      | Some _ => Ret None
      | None => l <-- ffi_types f i ;;; Ret (Some (FtBoolean :: l))
      end
  | TDCustom _ b => l <-- ffi_types f b ;;; Ret (Some l)
  | _ => Ret None
  end.

(** ffi_types.rs l.87-148 [add_type_definitions]. *)
Fixpoint build_ffi (flat : ty -> bool) (f : fmap) (ds : list type_definition) : out fmap :=
  match ds with
  | [] => Ret f
  | d :: ds =>
      o <-- def_ffi flat f d ;;;
      match o with
      | Some l => build_ffi flat ((self_type d, l) :: f) ds
      | None => build_ffi flat f ds
      end
  end.

(** ** The slots of an enum variant: src/pipeline/enums.rs *)

(** [Vec::swap_remove]: the last element takes the place of the removed one. *)
Fixpoint set_nth {A} (i : nat) (x : A) (l : list A) : list A :=
  match l, i with
  | [], _ => []
  | _ :: l, O => x :: l
  | y :: l, S i => y :: set_nth i x l
  end.

Definition swap_remove {A} (l : list A) (i : nat) : list A :=
  match rev l with
  | [] => []
  | x :: _ =>
      let l' := removelast l in
      if Nat.ltb i (length l') then set_nth i x l' else l'
  end.

Fixpoint position (t : fty) (l : list (nat * fty)) : option (nat * nat) :=
  match l with
  | [] => None
  | (ix, t') :: l =>
      if fty_beq t' t then Some (O, ix)
      else match position t l with Some (i, ix) => Some (S i, ix) | None => None end
  end.

(** enums.rs l.138-154 [VariantFieldAllocator::alloc]. *)
Definition alloc_slot (avail : list (nat * fty)) (t : fty) : out (nat * list (nat * fty)) :=
  match position t avail with
  | None => Bad Refused
  | Some (i, ix) => Ret (ix, swap_remove avail i)
  end.

Fixpoint alloc_slots (avail : list (nat * fty)) (ts : list fty) : out (list nat * list (nat * fty)) :=
  match ts with
  | [] => Ret ([], avail)
  | t :: ts =>
      x <-- alloc_slot avail t ;;;
      r <-- alloc_slots (snd x) ts ;;;
      Ret (fst x :: fst r, snd r)
  end.

(** enums.rs l.86-117 [map_fields]: the slots of each field. *)
Fixpoint field_slots (f : fmap) (avail : list (nat * fty)) (ts : list ty) : out (list (list nat)) :=
  match ts with
  | [] => Ret []
  | t :: ts =>
      l <-- ffi_types f t ;;;
      x <-- alloc_slots avail l ;;;
      r <-- field_slots f (snd x) ts ;;;
      Ret (fst x :: r)
  end.

(** enums.rs l.31-37 and l.126-136: the slots after the one of the discriminant are available. *)
Definition available (all : list fty) : list (nat * fty) :=
  tl (combine (seq 0 (length all)) all).

Definition variant_slots (f : fmap) (self : ty) (v : list ty) : out (list (list nat)) :=
  all <-- ffi_types f self ;;;
  field_slots f (available all) v.

(** enums.rs l.86-93: the fields of a variant come after an [Int32]. *)
Definition variant_offsets (m : lmap) (v : list ty) : out (list (Z * ty)) :=
  r <-- offsets m builder_new (TI32 :: v) ;;; Ret (tl (fst r)).

(** ** Generating *)

(** What the generated code was made from: the definitions, the FFI types and the layouts. *)
Record gen := Gen { g_defs : list type_definition; g_flat : ty -> bool; g_ffi : fmap; g_lay : lmap }.

(** packages.rs l.28-84 with records.rs, enums.rs, compounds.rs, custom.rs: what must be found for one
    definition.  Interfaces and callback interfaces only add functions, whose types are handled
    apart. *)
Definition map_def (f : fmap) (m : lmap) (d : type_definition) : out unit :=
  match d with
  | TDRecord self fs =>
      _ <-- ffi_types f self ;;; _ <-- ffi_types_all f fs ;;; _ <-- offsets m builder_new fs ;;; Ret tt
  | TDEnum self vs =>
      _ <-- ffi_types f self ;;;
      _ <-- omap (fun v => _ <-- variant_slots f self v ;;; variant_offsets m v) vs ;;; Ret tt
  | TDOptional self i =>
      _ <-- item_of m [TBool; i] ;;; _ <-- ffi_types f i ;;; _ <-- ffi_types f self ;;; Ret tt
  | TDSequence self i | TDSet self i =>
      _ <-- item_of m [i] ;;; _ <-- ffi_types f i ;;; Ret tt
  | TDMap self k v =>
      _ <-- item_of m [k; v] ;;; _ <-- ffi_types f k ;;; _ <-- ffi_types f v ;;; Ret tt
  | TDBox self i => _ <-- ffi_types f i ;;; Ret tt
  | TDCustom self b => _ <-- ffi_types f b ;;; _ <-- ffi_types f self ;;; Ret tt
  | _ => Ret tt
  end.

(** context.rs l.87-111 [populate_fields_from_type_definitions], then root.rs l.7-15: [ds] are the
    sorted definitions of all packages. *)
Definition generate (flat : ty -> bool) (ds : list type_definition) : out gen :=
  f <-- build_ffi flat [] ds ;;;
  m <-- build_layouts [] ds ;;;
  _ <-- omap (map_def f m) ds ;;;
  Ret (Gen ds flat f m).

(** context.rs l.87-111 and root.rs l.7-15 for the definitions [ds] of all packages, namespace by
    namespace: they are sorted, which keeps one definition of each name, and all are mapped. *)
Definition generate_root (flat : ty -> bool) (ds : list type_definition) : out gen :=
  sorted <-- (match sort_type_definitions ds with Ok r => Ret r | _ => Bad TooDeep end) ;;;
  f <-- build_ffi flat [] sorted ;;;
  m <-- build_layouts [] sorted ;;;
  _ <-- omap (map_def f m) ds ;;;
  Ret (Gen sorted flat f m).

Fixpoint find_record (ds : list type_definition) (t : ty) : option (list ty) :=
  match ds with
  | [] => None
  | TDRecord self fs :: ds => if ty_eqb t self then Some fs else find_record ds t
  | _ :: ds => find_record ds t
  end.

Fixpoint find_enum (ds : list type_definition) (t : ty) : option (list (list ty)) :=
  match ds with
  | [] => None
  | TDEnum self vs :: ds => if ty_eqb t self then Some vs else find_enum ds t
  | _ :: ds => find_enum ds t
  end.

(** ** Values *)

(** Values of the interface, the same on both sides.  A map is the list of its entries, key before
    value, in the order it is iterated; a string is its code points; a float its bits; an object its
    handle; an instant the whole seconds since the epoch, rounded down, and the nanoseconds after
    that. *)
Inductive val :=
| VInt (z : Z)
| VBool (b : bool)
| VFloat (bits : Z)
| VStr (s : list Z)
| VBytes (l : list Z)
| VDuration (secs nanos : Z)
| VInstant (secs nanos : Z)
| VNone
| VSome (v : val)
| VColl (l : list val)
| VRec (l : list val)
| VEnum (i : nat) (l : list val)
| VFlat (i : nat) (msg : list Z)
| VObj (h : Z)
| VBox (v : val).

(** FFI values: what a JNI function takes and returns. *)
Inductive fval :=
| FInt (t : fty) (z : Z)
| FFloat (t : fty) (bits : Z)
| FBool (b : bool)
| FStr (s : option (list Z))
| FArr (t : fty) (l : option (list Z))
| FBuf (p : option (Z * Z)).

Definition fval_type (v : fval) : fty :=
  match v with
  | FInt t _ | FFloat t _ | FArr t _ => t
  | FBool _ => FtBoolean
  | FStr _ => FtString
  | FBuf _ => FtByteBuffer
  end.

(** ffi_types.rs l.197-215 [default_kt], and [Default::default()] of the Rust type. *)
Definition default_of (t : fty) : fval :=
  match t with
  | FtInt8 | FtInt16 | FtInt32 | FtInt64 => FInt t 0
  | FtFloat32 | FtFloat64 => FFloat t 0
  | FtBoolean => FBool false
  | FtString => FStr None
  | FtByteBuffer => FBuf None
  | _ => FArr t None
  end.

(** ** Memory *)

(** A block on the heap of the Rust side.  A [Bytes] block has a size and its bytes; [None] is a byte
    that was never written.  [Str] is the buffer of a leaked [String]; [Boxed] is a leaked [Box]. *)
Inductive block :=
| Bytes (len : Z) (data : Z -> option Z)
| Str (s : list Z)
| Boxed (v : val).

(** Addresses are multiples of 8 and never used again; a pointer into a block is the address of the
    block and an offset. *)
Record heap := Heap { cells : Z -> option block; next : Z }.

Definition upd (c : Z -> option block) (a : Z) (b : option block) : Z -> option block :=
  fun x => if x =? a then b else c x.

Definition max_address : Z := 2 ^ 62.

Definition alloc_block (b : block) (h : heap) : out (Z * heap) :=
  if next h + 8 <=? max_address
  then Ret (next h, Heap (upd (cells h) (next h) (Some b)) (next h + 8))
  else Bad NoMemory.

(** uniffi_core/src/ffi/ffibuffer.rs l.32-50 [alloc]. *)
Definition buf_alloc (cap : Z) (h : heap) : out (Z * heap) :=
  if cap =? 0 then Ret (0, h)
  else if isize_max <? cap then Bad Refused
  else alloc_block (Bytes cap (fun _ => None)) h.

(** ffibuffer.rs l.58-72 [free]. *)
Definition buf_free (a cap : Z) (h : heap) : out heap :=
  if cap =? 0 then Ret h
  else match cells h a with
       | Some (Bytes len _) =>
           if len =? cap then Ret (Heap (upd (cells h) a None) (next h)) else Bad Undefined
       | _ => Bad Undefined
       end.

Inductive side := Rs | Kt.
Definition other (s : side) : side := match s with Rs => Kt | Kt => Rs end.

(** Native byte order is taken to be little-endian. *)
Definition byte_of (z i : Z) : Z := z / 256 ^ i mod 256.

(** Whether [n] bytes at [off] are inside a block of [len] bytes, and for Rust aligned.
    FfiBuffer.kt: [ByteBuffer.get...] and [put...] check their bounds and take any offset. *)
Definition access (s : side) (n len off : Z) : out unit :=
  if (0 <=? off) && (off + n <=? len) then
    match s with
    | Rs => if off mod n =? 0 then Ret tt else Bad Undefined
    | Kt => Ret tt
    end
  else match s with Rs => Bad Undefined | Kt => Bad Refused end.

(** What using a block that is not there does; a Kotlin buffer without capacity checks its bounds. *)
Definition no_block {A} (s : side) (a : Z) : out A :=
  match s with
  | Kt => if a =? 0 then Bad Refused else Bad Undefined
  | Rs => Bad Undefined
  end.

(** ffibuffer.rs l.93-98 [$write_fn]; FfiBuffer.kt [write...]. *)
Definition store (s : side) (n a off z : Z) (h : heap) : out heap :=
  match cells h a with
  | Some (Bytes len f) =>
      _ <-- access s n len off ;;;
      Ret (Heap (upd (cells h) a
             (Some (Bytes len (fun i => if (off <=? i) && (i <? off + n)
                                        then Some (byte_of z (i - off)) else f i))))
             (next h))
  | _ => no_block s a
  end.

Fixpoint gather (f : Z -> option Z) (off : Z) (n : nat) : option Z :=
  match n with
  | O => Some 0
  | S n =>
      match f off, gather f (off + 1) n with
      | Some b, Some r => Some (b + 256 * r)
      | _, _ => None
      end
  end.

(** ffibuffer.rs l.83-85 [$read_fn]; FfiBuffer.kt [read...].  The bits, unsigned. *)
Definition load (s : side) (n a off : Z) (h : heap) : out Z :=
  match cells h a with
  | Some (Bytes len f) =>
      _ <-- access s n len off ;;;
      of_opt Undefined (gather f off (Z.to_nat n))
  | _ => no_block s a
  end.

(** [value as iN], [value as uN] for [n] bytes. *)
Definition unsigned (n z : Z) : Z := z mod 256 ^ n.
Definition signed (n z : Z) : Z :=
  let u := unsigned n z in if u <? 256 ^ n / 2 then u else u - 256 ^ n.
Definition as_int (n : Z) (sg : bool) (z : Z) : Z := if sg then signed n z else unsigned n z.

(** ffibuffer.rs l.171-191 [write_string].  The length and the capacity are counted in code points
    rather than bytes. *)
Definition store_string (a off : Z) (s : list Z) (h : heap) : out heap :=
  p <-- alloc_block (Str s) h ;;;
  h <-- store Rs 8 a off (fst p) (snd p) ;;;
  h <-- store Rs 8 a (off + 8) (Z.of_nat (length s)) h ;;;
  store Rs 8 a (off + 16) (Z.of_nat (length s)) h.

(** ffibuffer.rs l.144-164 [read_string]: the string takes its buffer over. *)
Definition load_string (a off : Z) (h : heap) : out (list Z * heap) :=
  p <-- load Rs 8 a off h ;;;
  len <-- load Rs 8 a (off + 8) h ;;;
  cap <-- load Rs 8 a (off + 16) h ;;;
  match cells h p with
  | Some (Str s) =>
      if (len =? Z.of_nat (length s)) && (cap =? Z.of_nat (length s))
      then Ret (s, Heap (upd (cells h) p None) (next h))
      else Bad Undefined
  | _ => Bad Undefined
  end.

(** ffibuffer.rs l.233-246 [write_buffer]; FfiBuffer.kt [writeBuffer] does it in Rust. *)
Definition store_buffer (a off p cap : Z) (h : heap) : out heap :=
  h <-- store Rs 8 a off p h ;;;
  store Rs 8 a (off + 8) cap h.

(** ffibuffer.rs l.205-220 [read_buffer]. *)
Definition load_buffer (a off : Z) (h : heap) : out (Z * Z) :=
  p <-- load Rs 8 a off h ;;;
  cap <-- load Rs 8 a (off + 8) h ;;;
  Ret (p, cap).

(** scaffolding/templates/box.rs l.5-23 [lift_from_handle]: the box is freed, its content moved
    out. *)
Definition take_box (p : Z) (h : heap) : out (val * heap) :=
  match cells h p with
  | Some (Boxed v) => Ret (v, Heap (upd (cells h) p None) (next h))
  | _ => Bad Undefined
  end.

(** runtime/src/strings.rs l.15-29 [decode_jni_string]: a string with a surrogate that is not part of
    a pair is refused. *)
Definition surrogate (c : Z) : bool := (55296 <=? c) && (c <=? 57343).
Definition decode (s : list Z) : out (list Z) :=
  if existsb surrogate s then Bad Refused else Ret s.

(** ** The runtime's conversions *)

(** Integers: the FFI type, the size in bytes, and whether they are signed. *)
Definition int_of (t : ty) : option (fty * Z * bool) :=
  match t with
  | TI8 => Some (FtInt8, 1, true) | TU8 => Some (FtInt8, 1, false)
  | TI16 => Some (FtInt16, 2, true) | TU16 => Some (FtInt16, 2, false)
  | TI32 => Some (FtInt32, 4, true) | TU32 => Some (FtInt32, 4, false)
  | TI64 => Some (FtInt64, 8, true) | TU64 => Some (FtInt64, 8, false)
  | _ => None
  end.

Definition i64_max : Z := 2 ^ 63 - 1.

(** types.rs l.160-187: which options have functions in the runtime, and optional.rs l.3-70 which are
    generated. *)
Inductive okind :=
| OInt (n : Z) (sg : bool)
| OBool | OFloat32 | OFloat64 | OString
| OIface
| OMissing  (** one FFI value, but neither the runtime nor the template has functions for it *)
| OPlain.   (** a flag before the FFI values of the content *)

Definition option_kind (i : ty) : okind :=
  match i with
  | TI8 => OInt 1 true | TU8 => OInt 1 false
  | TI16 => OInt 2 true | TU16 => OInt 2 false
  | TI32 => OInt 4 true | TU32 => OInt 4 false
  | TBool => OBool
  | TF32 => OFloat32
  | TF64 => OFloat64
  | TString => OString
  | TObject _ _ _ => OIface
  | TCallback _ _ => OMissing
  | TSeq TBytes => OMissing
  | _ => OPlain
  end.

(** An item of a JVM array of primitives: runtime/src/lift_lower.rs l.194-528, LiftLower.kt
    l.52-77. *)
Definition to_item (i : ty) (v : val) : option Z :=
  match int_of i, i, v with
  | Some (_, n, _), _, VInt z => Some (signed n z)
  | None, TF32, VFloat b | None, TF64, VFloat b => Some b
  | _, _, _ => None
  end.

(** runtime/src/lift_lower.rs l.218-228 and so on: the length of a new array is [value.len() as i32];
    for a negative one there is no array, and setting its items is undefined. *)
Definition new_array (s : side) (l : list Z) : out (list Z) :=
  match s with
  | Kt => Ret l
  | Rs =>
      let n := signed 4 (Z.of_nat (length l)) in
      if n <? 0 then Bad Undefined else Ret (firstn (Z.to_nat n) l)
  end.

Definition of_item (i : ty) (z : Z) : val :=
  match int_of i with
  | Some (_, n, sg) => VInt (as_int n sg z)
  | None => VFloat z
  end.

(** Instants: scaffolding/templates/timestamp.rs l.1-33 and TimestampFfi.kt l.7-38 compute the same
    two parts. *)
Definition instant_to_parts (secs nanos : Z) : Z * Z :=
  if 0 <=? secs then (secs, nanos)
  else if nanos =? 0 then (secs, 0)
  else (secs + 1, 1000000000 - nanos).

Definition instant_of_parts (secs nanos : Z) : Z * Z :=
  if 0 <=? secs then (secs, nanos)
  else if nanos =? 0 then (secs, 0)
  else (secs - 1, 1000000000 - nanos).

(** [java.time.Instant.MIN] and [MAX], in seconds. *)
Definition instant_range (secs : Z) : bool :=
  (-31557014167219200 <=? secs) && (secs <=? 31556889864403199).

(** A Kotlin value that is [null]; a box is not seen in Kotlin. *)
Fixpoint is_null (v : val) : bool :=
  match v with VNone => true | VBox v => is_null v | _ => false end.

(** The value a reader of an option makes of the content.  In Kotlin [T??] is [T?]: content that is
    [null] makes the option [null]. *)
Definition mk_some (s : side) (v : val) : val :=
  match s with
  | Rs => VSome v
  | Kt => if is_null v then VNone else VSome v
  end.

(** ** The generated code *)

(** The functions of one depth; see [codec_at]. *)
Record codec := Codec {
  c_lower : side -> ty -> val -> heap -> out (list fval * heap);
  c_lift : side -> ty -> list fval -> heap -> out (val * heap);
  c_write : side -> ty -> Z -> Z -> val -> heap -> out heap;
  c_read : side -> ty -> Z -> Z -> heap -> out (val * heap) }.

Section code.
  Variable g : gen.
  Variable c : codec.

  (** Values written one after the other at given offsets: the fields of a record or variant, or the
      items of a collection. *)
  Fixpoint write_fields (s : side) (a off : Z) (l : list (Z * ty)) (vs : list val) (h : heap)
    : out heap :=
    match l, vs with
    | [], [] => Ret h
    | (o, t) :: l, v :: vs =>
        h <-- c_write c s t a (off + o) v h ;;; write_fields s a off l vs h
    | _, _ => Bad NoCode
    end.

  Fixpoint read_fields (s : side) (a off : Z) (l : list (Z * ty)) (h : heap)
    : out (list val * heap) :=
    match l with
    | [] => Ret ([], h)
    | (o, t) :: l =>
        x <-- c_read c s t a (off + o) h ;;;
        r <-- read_fields s a off l (snd x) ;;;
        Ret (fst x :: fst r, snd r)
    end.

  Fixpoint lower_each (s : side) (ts : list ty) (vs : list val) (h : heap)
    : out (list (list fval) * heap) :=
    match ts, vs with
    | [], [] => Ret ([], h)
    | t :: ts, v :: vs =>
        x <-- c_lower c s t v h ;;;
        r <-- lower_each s ts vs (snd x) ;;;
        Ret (fst x :: fst r, snd r)
    | _, _ => Bad NoCode
    end.

  Fixpoint lift_each (s : side) (ts : list ty) (xs : list (list fval)) (h : heap)
    : out (list val * heap) :=
    match ts, xs with
    | [], [] => Ret ([], h)
    | t :: ts, x :: xs =>
        v <-- c_lift c s t x h ;;;
        r <-- lift_each s ts xs (snd v) ;;;
        Ret (fst v :: fst r, snd r)
    | _, _ => Bad NoCode
    end.

  (** records.rs l.21-51: the FFI values of a record are those of its fields, in order. *)
  Fixpoint split_fields (ts : list ty) (xs : list fval) : out (list (list fval)) :=
    match ts with
    | [] => Ret []
    | t :: ts =>
        l <-- ffi_types (g_ffi g) t ;;;
        r <-- split_fields ts (skipn (length l) xs) ;;;
        Ret (firstn (length l) xs :: r)
    end.

  (** The offsets of [n] items of [isz] bytes, each made of [parts]. *)
  Fixpoint items_at (n : nat) (isz : Z) (parts : list (Z * ty)) (pos : Z) : list (Z * ty) :=
    match n with
    | O => []
    | S n => map (fun p => (pos + fst p, snd p)) parts ++ items_at n isz parts (pos + isz)
    end.

  (** A division by the literal [0] in the generated code is refused by the Rust compiler. *)
  Definition coll_info (t : ty) : out (Z * list (Z * ty)) :=
    ts <-- of_opt NoCode (coll_parts t) ;;;
    x <-- item_of (g_lay g) ts ;;;
    if fst x =? 0 then Bad NoCode else Ret x.

  (** [value.len() * item_size] is a [usize] in Rust; [value.size * item_size] is an [Int] in Kotlin,
      and scaffolding/templates/ffi_buffer.rs l.23 casts it to [usize]. *)
  Definition buf_size (s : side) (n : Z) : Z :=
    match s with
    | Rs => unsigned 8 n
    | Kt => unsigned 8 (signed 4 n)
    end.

  (** scaffolding/templates/sequence.rs l.5-18, map.rs l.5-19, set.rs l.5-18 [lower_into_parts];
      SequenceFfi.kt l.5-13, MapFfi.kt l.3-13, SetFfi.kt. *)
  Definition lower_coll (s : side) (t : ty) (vs : list val) (h : heap) : out (Z * Z * heap) :=
    x <-- coll_info t ;;;
    let n := Nat.div (length vs) (length (snd x)) in
    let cap := buf_size s (Z.of_nat n * fst x) in
    p <-- buf_alloc cap h ;;;
    h <-- write_fields s (fst p) 0 (items_at n (fst x) (snd x) 0) vs (snd p) ;;;
    Ret (fst p, cap, h).

  (** sequence.rs l.20-39, map.rs l.21-44, set.rs l.20-39 [lift_from_parts]; SequenceFfi.kt l.15-30,
      MapFfi.kt l.15-34, SetFfi.kt.  The JVM refuses a direct buffer of more than [Int.MAX_VALUE]
      bytes.  Keys and items that are equal are not merged here: the values of this model are the
      lists of distinct entries. *)
  Definition lift_coll (s : side) (t : ty) (p cap : Z) (h : heap) : out (val * heap) :=
    x <-- coll_info t ;;;
    _ <-- (match s with
           | Kt => if 2147483647 <? cap then Bad Refused else Ret tt
           | Rs => Ret tt
           end) ;;;
    r <-- read_fields s p 0 (items_at (Z.to_nat (cap / fst x)) (fst x) (snd x) 0) h ;;;
    h <-- buf_free p cap (snd r) ;;;
    Ret (VColl (fst r), h).

  (** box.rs l.25-30 in Rust; BoxFfi.kt l.3-11 with box.rs l.53-70 [boxFromFfiValues]: the content is
      lowered in Kotlin, lifted in Rust, and put into a box there. *)
  Definition lower_box (s : side) (i : ty) (v : val) (h : heap) : out (Z * heap) :=
    match s, v with
    | Rs, VBox v => alloc_block (Boxed v) h
    | Kt, VBox v =>
        x <-- c_lower c Kt i v h ;;;
        y <-- c_lift c Rs i (fst x) (snd x) ;;;
        alloc_block (Boxed (fst y)) (snd y)
    | _, _ => Bad NoCode
    end.

  (** box.rs l.32-37; BoxFfi.kt l.13-16 with box.rs l.72-92 [boxIntoInner]. *)
  Definition lift_box (s : side) (i : ty) (p : Z) (h : heap) : out (val * heap) :=
    x <-- take_box p h ;;;
    match s with
    | Rs => Ret (VBox (fst x), snd x)
    | Kt =>
        y <-- c_lower c Rs i (fst x) (snd x) ;;;
        z <-- c_lift c Kt i (fst y) (snd y) ;;;
        Ret (VBox (fst z), snd z)
    end.

  (** runtime/src/lift_lower.rs l.84-188, LiftLower.kt l.79-176, optional.rs l.3-60, OptionalFfi.kt
      l.3-59. *)
  Definition lower_option (s : side) (i : ty) (v : val) (h : heap) : out (list fval * heap) :=
    match option_kind i, v with
    | OInt _ _, VNone => Ret ([FInt FtInt64 i64_max], h)
    | OInt _ _, VSome (VInt z) => Ret ([FInt FtInt64 z], h)
    | OBool, VNone => Ret ([FInt FtInt64 i64_max], h)
    | OBool, VSome (VBool b) => Ret ([FInt FtInt64 (if b then 1 else 0)], h)
    | OFloat32, VNone => Ret ([FInt FtInt32 (signed 4 4294967295)], h)
    | OFloat32, VSome (VFloat b) =>
        Ret ([FInt FtInt32 (signed 4 (if b =? 4294967295 then 4290772992 else b))], h)
    | OFloat64, VNone => Ret ([FInt FtInt64 (signed 8 18446744073709551615)], h)
    | OFloat64, VSome (VFloat b) =>
        Ret ([FInt FtInt64 (signed 8 (if b =? 18446744073709551615 then 4294443008 else b))], h)
    | OString, VNone => Ret ([FStr None], h)
    | OString, VSome (VStr x) => Ret ([FStr (Some x)], h)
    | OIface, VNone => Ret ([FInt FtInt64 0], h)
    | OIface, VSome v => c_lower c s i v h
    | OPlain, VNone =>
        l <-- ffi_types (g_ffi g) i ;;;
        if Nat.eqb (length l) 0 then Bad NoCode
        else Ret (FBool false :: map default_of l, h)
    | OPlain, VSome v =>
        l <-- ffi_types (g_ffi g) i ;;;
        if Nat.eqb (length l) 0 then Bad NoCode
        else x <-- c_lower c s i v h ;;; Ret (FBool true :: fst x, snd x)
    | _, _ => Bad NoCode
    end.

  (** lift_lower.rs l.84-188, LiftLower.kt l.79-176, optional.rs l.32-48 and l.61-70, OptionalFfi.kt
      l.34-48 and l.61-69: Rust takes a handle that is not [0], Kotlin one that is greater. *)
  Definition lift_option (s : side) (i : ty) (xs : list fval) (h : heap) : out (val * heap) :=
    match option_kind i, xs with
    | OInt n sg, [FInt _ z] =>
        Ret (if z =? i64_max then VNone else VSome (VInt (as_int n sg z)), h)
    | OBool, [FInt _ z] => Ret (if z =? i64_max then VNone else VSome (VBool (z =? 1)), h)
    | OFloat32, [FInt _ z] =>
        Ret (if unsigned 4 z =? 4294967295 then VNone else VSome (VFloat (unsigned 4 z)), h)
    | OFloat64, [FInt _ z] =>
        Ret (if unsigned 8 z =? 18446744073709551615 then VNone
             else VSome (VFloat (unsigned 8 z)), h)
    | OString, [FStr None] => Ret (VNone, h)
    | OString, [FStr (Some x)] =>
        match s with
        | Rs => x <-- decode x ;;; Ret (VSome (VStr x), h)
        | Kt => Ret (VSome (VStr x), h)
        end
    | OIface, [FInt _ z] =>
        if (match s with Rs => negb (z =? 0) | Kt => 0 <? z end)
        then x <-- c_lift c s i xs h ;;; Ret (mk_some s (fst x), snd x)
        else Ret (VNone, h)
    | OPlain, FBool b :: xs =>
        l <-- ffi_types (g_ffi g) i ;;;
        if Nat.eqb (length l) 0 then Bad NoCode
        else if b then x <-- c_lift c s i xs h ;;; Ret (mk_some s (fst x), snd x)
        else Ret (VNone, h)
    | _, _ => Bad NoCode
    end.

  (** scaffolding/templates/record.rs l.3-24, RecordFfi.kt l.12-31: a record with one FFI value
      returns what its first field lowers to. *)
  Definition lower_record (s : side) (t : ty) (vs : list val) (h : heap) : out (list fval * heap) :=
    fs <-- of_opt NoCode (find_record (g_defs g) t) ;;;
    l <-- ffi_types (g_ffi g) t ;;;
    x <-- lower_each s fs vs h ;;;
    if Nat.eqb (length l) 1
    then match fst x with
         | [v] :: _ => Ret ([v], snd x)
         | _ => Bad NoCode
         end
    else Ret (concat (fst x), snd x).

  (** record.rs l.26-44, RecordFfi.kt l.33-48. *)
  Definition lift_record (s : side) (t : ty) (xs : list fval) (h : heap) : out (val * heap) :=
    fs <-- of_opt NoCode (find_record (g_defs g) t) ;;;
    xss <-- split_fields fs xs ;;;
    r <-- lift_each s fs xss h ;;;
    Ret (VRec (fst r), snd r).

  Fixpoint slot_value (ix : nat) (l : list (nat * fval)) : option fval :=
    match l with
    | [] => None
    | (i, v) :: l => if Nat.eqb ix i then Some v else slot_value ix l
    end.

  (** scaffolding/templates/enum.rs l.45-53, EnumFfi.kt l.57-65: the slots a variant does not use hold
      defaults. *)
  Definition fill (all : list fty) (l : list (nat * fval)) : list fval :=
    map (fun p => match slot_value (fst p) l with
                  | Some v => v
                  | None => default_of (snd p)
                  end) (available all).

  (** The slots paired with the values lowered into them.  Both lists have the same shape, or the
      code does not compile. *)
  Fixpoint pair_slots (slots : list (list nat)) (xs : list (list fval)) : out (list (nat * fval)) :=
    match slots, xs with
    | [], [] => Ret []
    | sl :: slots, x :: xs =>
        if Nat.eqb (length sl) (length x)
        then r <-- pair_slots slots xs ;;; Ret (combine sl x ++ r)
        else Bad NoCode
    | _, _ => Bad NoCode
    end.

  (** enum.rs l.4-59 and l.175-190 (flat errors); EnumFfi.kt l.4-8 and l.37-69, and no function for
      flat errors.  A Kotlin [enum class] is lowered to its ordinal, which is the index of the
      variant. *)
  Definition lower_enum (s : side) (t : ty) (v : val) (h : heap) : out (list fval * heap) :=
    vs <-- of_opt NoCode (find_enum (g_defs g) t) ;;;
    if g_flat g t then
      match s, v with
      | Rs, VFlat i msg =>
          if Nat.ltb i (length vs)
          then Ret ([FInt FtInt32 (Z.of_nat i); FStr (Some msg)], h)
          else Bad NoCode
      | _, _ => Bad NoCode
      end
    else
      match v with
      | VEnum i fvs =>
          fs <-- of_opt NoCode (nth_error vs i) ;;;
          all <-- ffi_types (g_ffi g) t ;;;
          slots <-- variant_slots (g_ffi g) t fs ;;;
          x <-- lower_each s fs fvs h ;;;
          l <-- pair_slots slots (fst x) ;;;
          Ret (FInt FtInt32 (Z.of_nat i) :: fill all l, snd x)
      | _ => Bad NoCode
      end.

  Definition take_slots (xs : list fval) (slots : list (list nat)) : out (list (list fval)) :=
    omap (fun sl => omap (fun ix => of_opt NoCode (nth_error xs ix)) sl) slots.

  (** enum.rs l.61-101; EnumFfi.kt l.10-17, l.71-95 and, for flat errors, l.139-147. *)
  Definition lift_enum (s : side) (t : ty) (xs : list fval) (h : heap) : out (val * heap) :=
    vs <-- of_opt NoCode (find_enum (g_defs g) t) ;;;
    if g_flat g t then
      match s, xs with
      | Kt, [FInt _ d; FStr m] =>
          msg <-- of_opt Refused m ;;;
          if (0 <=? d) && (d <? Z.of_nat (length vs))
          then Ret (VFlat (Z.to_nat d) msg, h)
          else Bad Refused
      | _, _ => Bad NoCode
      end
    else
      match xs with
      | FInt _ d :: _ =>
          if (0 <=? d) && (d <? Z.of_nat (length vs)) then
            fs <-- of_opt NoCode (nth_error vs (Z.to_nat d)) ;;;
            slots <-- variant_slots (g_ffi g) t fs ;;;
            xss <-- take_slots xs slots ;;;
            r <-- lift_each s fs xss h ;;;
            Ret (VEnum (Z.to_nat d) (fst r), snd r)
          else Bad Refused
      | _ => Bad NoCode
      end.

  (** types.rs l.159-303 [lower_fn_rs], [lower_fn_kt] and what they name: runtime/src/lift_lower.rs
      l.19-79, LiftLower.kt l.1-77, custom.rs (whose conversions are taken to be the identity),
      class.rs and ClassFfi.kt (an object is its handle), duration.rs l.1-6, DurationFfi.kt l.7-20,
      timestamp.rs, TimestampFfi.kt. *)
  Definition lower_step (s : side) (t : ty) (v : val) (h : heap) : out (list fval * heap) :=
    match t, v with
    | TBool, VBool b => Ret ([FBool b], h)
    | TF32, VFloat b => Ret ([FFloat FtFloat32 b], h)
    | TF64, VFloat b => Ret ([FFloat FtFloat64 b], h)
    | TString, VStr x => Ret ([FStr (Some x)], h)
    | TBytes, VBytes l =>
        l <-- new_array s (map (signed 1) l) ;;; Ret ([FArr FtByteArray (Some l)], h)
    | TDuration, VDuration secs nanos =>
        if match s with Rs => false | Kt => secs <? 0 end then Bad Refused
        else Ret ([FInt FtInt64 (signed 8 secs); FInt FtInt32 (signed 4 nanos)], h)
    | TTimestamp, VInstant secs nanos =>
        let p := instant_to_parts secs nanos in
        Ret ([FInt FtInt64 (fst p); FInt FtInt32 (signed 4 (snd p))], h)
    | TObject _ _ _, VObj z | TCallback _ _, VObj z => Ret ([FInt FtInt64 z], h)
    | TBox i, _ => x <-- lower_box s i v h ;;; Ret ([FInt FtInt64 (fst x)], snd x)
    | TCustom _ _ b, _ => c_lower c s b v h
    | TOption i, _ => lower_option s i v h
    | TSeq i, VColl vs =>
        match array_type i with
        | Some a =>
            l <-- omap (fun v => of_opt NoCode (to_item i v)) vs ;;;
            l <-- new_array s l ;;;
            Ret ([FArr a (Some l)], h)
        | None =>
            x <-- lower_coll s t vs h ;;; Ret ([FBuf (Some (fst x))], snd x)
        end
    | TSet _, VColl vs | TMap _ _, VColl vs =>
        x <-- lower_coll s t vs h ;;; Ret ([FBuf (Some (fst x))], snd x)
    | TRecord _ _, VRec vs => lower_record s t vs h
    | TEnum _ _, _ => lower_enum s t v h
    | _, VInt z =>
        x <-- of_opt NoCode (int_of t) ;;;
        Ret ([FInt (fst (fst x)) (signed (snd (fst x)) z)], h)
    | _, _ => Bad NoCode
    end.

  Definition lift_step (s : side) (t : ty) (xs : list fval) (h : heap) : out (val * heap) :=
    match t, xs with
    | TBool, [FBool b] => Ret (VBool b, h)
    | TF32, [FFloat _ b] => Ret (VFloat b, h)
    | TF64, [FFloat _ b] => Ret (VFloat b, h)
    | TString, [FStr x] =>
        x <-- of_opt Refused x ;;;
        match s with
        | Rs => x <-- decode x ;;; Ret (VStr x, h)
        | Kt => Ret (VStr x, h)
        end
    | TBytes, [FArr _ l] => l <-- of_opt Refused l ;;; Ret (VBytes (map (unsigned 1) l), h)
    | TDuration, [FInt _ secs; FInt _ nanos] =>
        match s with
        | Rs => Ret (VDuration (unsigned 8 secs) (unsigned 4 nanos), h)
        | Kt => Ret (VDuration secs nanos, h)
        end
    | TTimestamp, [FInt _ secs; FInt _ nanos] =>
        let p := instant_of_parts secs (unsigned 4 nanos) in
        match s with
        | Rs => Ret (VInstant (fst p) (snd p), h)
        | Kt => if instant_range (fst p) then Ret (VInstant (fst p) (snd p), h) else Bad Refused
        end
    | TObject _ _ _, [FInt _ z] | TCallback _ _, [FInt _ z] => Ret (VObj z, h)
    | TBox i, [FInt _ p] => lift_box s i p h
    | TCustom _ _ b, _ => c_lift c s b xs h
    | TOption i, _ => lift_option s i xs h
    | TSeq i, [FArr _ l] =>
        l <-- of_opt Refused l ;;; Ret (VColl (map (of_item i) l), h)
    | TSeq _, [FBuf p] | TSet _, [FBuf p] | TMap _ _, [FBuf p] =>
        p <-- of_opt Refused p ;;; lift_coll s t (fst p) (snd p) h
    | TRecord _ _, _ => lift_record s t xs h
    | TEnum _ _, _ => lift_enum s t xs h
    | _, [FInt _ z] =>
        x <-- of_opt NoCode (int_of t) ;;;
        Ret (VInt (as_int (snd (fst x)) (snd x) z), h)
    | _, _ => Bad NoCode
    end.

  (** enum.rs l.103-135 and l.192-208; EnumFfi.kt l.19-21 and l.97-109. *)
  Definition write_enum (s : side) (t : ty) (a off : Z) (v : val) (h : heap) : out heap :=
    vs <-- of_opt NoCode (find_enum (g_defs g) t) ;;;
    if g_flat g t then
      match s, v with
      | Rs, VFlat i msg =>
          if Nat.ltb i (length vs)
          then h <-- store Rs 4 a off (Z.of_nat i) h ;;; store_string a (off + 8) msg h
          else Bad NoCode
      | _, _ => Bad NoCode
      end
    else
      match v with
      | VEnum i fvs =>
          fs <-- of_opt NoCode (nth_error vs i) ;;;
          l <-- variant_offsets (g_lay g) fs ;;;
          h <-- store s 4 a off (Z.of_nat i) h ;;;
          write_fields s a off l fvs h
      | _ => Bad NoCode
      end.

  (** enum.rs l.137-172; EnumFfi.kt l.23-25, l.111-136 and, for flat errors, l.149-158. *)
  Definition read_enum (s : side) (t : ty) (a off : Z) (h : heap) : out (val * heap) :=
    vs <-- of_opt NoCode (find_enum (g_defs g) t) ;;;
    if g_flat g t then
      match s with
      | Kt =>
          d <-- load Kt 4 a off h ;;;
          if signed 4 d <? Z.of_nat (length vs)
          then if 0 <=? signed 4 d
               then x <-- load_string a (off + 8) h ;;; Ret (VFlat (Z.to_nat (signed 4 d)) (fst x), snd x)
               else Bad Refused
          else Bad Refused
      | Rs => Bad NoCode
      end
    else
      d <-- load s 4 a off h ;;;
      let d := signed 4 d in
      if (0 <=? d) && (d <? Z.of_nat (length vs)) then
        fs <-- of_opt NoCode (nth_error vs (Z.to_nat d)) ;;;
        l <-- variant_offsets (g_lay g) fs ;;;
        r <-- read_fields s a off l h ;;;
        Ret (VEnum (Z.to_nat d) (fst r), snd r)
      else Bad Refused.

  (** compounds.rs l.7-17: the offset of the content of an option. *)
  Definition some_offset (i : ty) : out Z :=
    r <-- offsets (g_lay g) builder_new [TBool; i] ;;;
    match fst r with
    | [_; p] => Ret (fst p)
    | _ => Bad NoCode
    end.

  (** types.rs [write_fn_rs], [write_fn_kt] and what they name: ffibuffer.rs l.74-246, FfiBuffer.kt,
      scaffolding/templates/ffi_buffer.rs l.62-112, optional.rs l.74-90, OptionalFfi.kt l.71-78,
      record.rs l.46-56, RecordFfi.kt l.50-54, sequence.rs l.62-70, SequenceFfi.kt l.46-49 and so on.
      The types without a layout are refused by [generate] (theorem C52_bytes_refuted), so that their functions,
      where there are any, are left out. *)
  Definition write_step (s : side) (t : ty) (a off : Z) (v : val) (h : heap) : out heap :=
    match t, v with
    | TBool, VBool b => store s 1 a off (if b then 1 else 0) h
    | TF32, VFloat b => store s 4 a off b h
    | TF64, VFloat b => store s 8 a off b h
    | TString, VStr x =>
        x <-- (match s with Rs => Ret x | Kt => decode x end) ;;; store_string a off x h
    | TObject _ _ _, VObj z => store s 8 a off z h
    | TBox i, _ => x <-- lower_box s i v h ;;; store s 8 a off (fst x) (snd x)
    | TCustom _ _ b, _ => c_write c s b a off v h
    | TOption i, VNone => store s 1 a off 0 h
    | TOption i, VSome v =>
        o <-- some_offset i ;;;
        h <-- store s 1 a off 1 h ;;; c_write c s i a (off + o) v h
    | TSeq _, VColl vs | TSet _, VColl vs | TMap _ _, VColl vs =>
        x <-- lower_coll s t vs h ;;;
        store_buffer a off (fst (fst x)) (snd (fst x)) (snd x)
    | TRecord _ _, VRec vs =>
        fs <-- of_opt NoCode (find_record (g_defs g) t) ;;;
        r <-- offsets (g_lay g) builder_new fs ;;;
        write_fields s a off (fst r) vs h
    | TEnum _ _, _ => write_enum s t a off v h
    | _, VInt z =>
        x <-- of_opt NoCode (int_of t) ;;;
        store s (snd (fst x)) a off z h
    | _, _ => Bad NoCode
    end.

  Definition read_step (s : side) (t : ty) (a off : Z) (h : heap) : out (val * heap) :=
    match t with
    | TBool => z <-- load s 1 a off h ;;; Ret (VBool (z =? 1), h)
    | TF32 => z <-- load s 4 a off h ;;; Ret (VFloat z, h)
    | TF64 => z <-- load s 8 a off h ;;; Ret (VFloat z, h)
    | TString => x <-- load_string a off h ;;; Ret (VStr (fst x), snd x)
    | TObject _ _ _ => z <-- load s 8 a off h ;;; Ret (VObj (signed 8 z), h)
    | TBox i => z <-- load s 8 a off h ;;; lift_box s i z h
    | TCustom _ _ b => c_read c s b a off h
    | TOption i =>
        o <-- some_offset i ;;;
        z <-- load s 1 a off h ;;;
        if z =? 1 then x <-- c_read c s i a (off + o) h ;;; Ret (mk_some s (fst x), snd x)
        else Ret (VNone, h)
    | TSeq _ | TSet _ | TMap _ _ =>
        p <-- load_buffer a off h ;;; lift_coll s t (fst p) (snd p) h
    | TRecord _ _ =>
        fs <-- of_opt NoCode (find_record (g_defs g) t) ;;;
        r <-- offsets (g_lay g) builder_new fs ;;;
        x <-- read_fields s a off (fst r) h ;;;
        Ret (VRec (fst x), snd x)
    | TEnum _ _ => read_enum s t a off h
    | _ =>
        x <-- of_opt NoCode (int_of t) ;;;
        z <-- load s (snd (fst x)) a off h ;;;
        Ret (VInt (as_int (snd (fst x)) (snd x) z), h)
    end.

  Fixpoint ftys_eqb (a b : list fty) : bool :=
    match a, b with
    | [], [] => true
    | x :: a, y :: b => fty_beq x y && ftys_eqb a b
    | _, _ => false
    end.

  (** Code whose FFI values do not have the FFI types of the type does not compile. *)
  Definition typed (t : ty) (xs : list fval) : out unit :=
    l <-- ffi_types (g_ffi g) t ;;;
    if ftys_eqb (map fval_type xs) l then Ret tt else Bad NoCode.

  Definition step : codec :=
    Codec
      (fun s t v h => x <-- lower_step s t v h ;;; _ <-- typed t (fst x) ;;; Ret x)
      (fun s t xs h => _ <-- typed t xs ;;; lift_step s t xs h)
      write_step
      read_step.
End code.

(** The generated functions, run with calls at most [n] deep. *)
Fixpoint codec_at (g : gen) (n : nat) : codec :=
  match n with
  | O => Codec (fun _ _ _ _ => Bad TooDeep) (fun _ _ _ _ => Bad TooDeep)
               (fun _ _ _ _ _ _ => Bad TooDeep) (fun _ _ _ _ _ => Bad TooDeep)
  | S n => step g (codec_at g n)
  end.

(** Passing a value as an argument or a return value: one side lowers it, the other lifts it. *)
Definition pass (g : gen) (n : nat) (s : side) (t : ty) (v : val) (h : heap) : out (val * heap) :=
  x <-- c_lower (codec_at g n) s t v h ;;;
  c_lift (codec_at g n) (other s) t (fst x) (snd x).
