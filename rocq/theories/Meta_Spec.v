(** What the metadata properties talk about, independently of how the model computes it. *)
From Verif Require Import Base Utf8 Meta_Types Meta_Model.
Open Scope Z_scope.

Definition utf8 (s : str) : Prop := utf8_valid s = true.
Definition opt_all {A} (P : A -> Prop) (o : option A) : Prop :=
  match o with Some x => P x | None => True end.

(** ** Items the macros can record

    A type the macros can name: its strings are UTF-8 (Rust source is) and a vector of bytes is
    [Bytes], never "a sequence of [u8]". *)
Fixpoint ty_recordable (t : ty) : Prop :=
  match t with
  | TObject mp n _ | TRecord mp n | TEnum mp n | TCallback mp n => utf8 mp /\ utf8 n
  | TBox t | TOption t | TSet t => ty_recordable t
  | TSeq t => t <> TU8 /\ ty_recordable t
  | TMap k v => ty_recordable k /\ ty_recordable v
  | TCustom mp n t => utf8 mp /\ utf8 n /\ ty_recordable t
  | _ => True
  end.

(** How deep the type's structure is: the stack the reader needs. *)
Fixpoint ty_depth (t : ty) : nat :=
  match t with
  | TBox t | TOption t | TSet t | TSeq t | TCustom _ _ t => S (ty_depth t)
  | TMap k v => S (Nat.max (ty_depth k) (ty_depth v))
  | TBytes => 2%nat (* a vector of [u8] *)
  | _ => 1%nat
  end.

Definition ty_ok (d : nat) (t : ty) : Prop := ty_recordable t /\ (ty_depth t <= d)%nat.

(** A literal of a type: the value fits, and carries the type.  A literal of a custom type is one of
    the type it wraps.  A negative literal where [u64] is asked for counts as an [i64] one: enum
    discriminants are recorded that way. *)
Definition base_type (t : ty) : ty := match t with TCustom _ _ b => b | _ => t end.
Definition unsigned_bits (t : ty) : option Z :=
  match t with TU8 => Some 8 | TU16 => Some 16 | TU32 => Some 32 | TU64 => Some 64 | _ => None end.
Definition signed_bits (t : ty) : option Z :=
  match t with TI8 => Some 8 | TI16 => Some 16 | TI32 => Some 32 | TI64 => Some 64 | _ => None end.
Fixpoint lit_ok (t : ty) (l : literal) : Prop :=
  match l with
  | LBool _ | LEmptySeq => True
  | LString s => base_type t = TString /\ utf8 s
  | LUInt z r t' =>
      r = Decimal_ /\ t' = base_type t /\ exists n, unsigned_bits t' = Some n /\ 0 <= z < 2 ^ n
  | LInt z r t' =>
      r = Decimal_ /\
      (exists n, signed_bits t' = Some n /\ - 2 ^ (n - 1) <= z < 2 ^ (n - 1)) /\
      (t' = base_type t \/ (t' = TI64 /\ base_type t = TU64 /\ z < 0))
  | LFloat s t' => t' = base_type t /\ (t' = TF32 \/ t' = TF64) /\ utf8 s
  | LNone => exists u, base_type t = TOption u
  | LSome d => exists u, base_type t = TOption u /\ default_ok u d
  | LEnum _ _ | LEmptyMap | LEmptySet => False
  end
with default_ok (t : ty) (d : default) : Prop :=
  match d with DDefault => True | DLit l => lit_ok t l end.

(** A documentation comment is recorded as absent when it is empty. *)
Definition doc_ok (o : option str) : Prop := opt_all (fun s => utf8 s /\ s <> []) o.

Definition param_ok (d : nat) (p : param) : Prop :=
  utf8 (p_name p) /\ ty_ok d (p_ty p) /\ opt_all (default_ok (p_ty p)) (p_default p).
Definition fn_ok (d : nat) (f : fn_meta) : Prop :=
  utf8 (f_mp f) /\ utf8 (f_name f) /\ opt_all utf8 (f_orig f) /\
  Forall (param_ok d) (f_inputs f) /\ opt_all (ty_ok d) (f_ret f) /\
  opt_all (ty_ok d) (f_throws f) /\ doc_ok (f_doc f).
Definition field_ok (d : nat) (f : field) : Prop :=
  utf8 (fd_name f) /\ opt_all utf8 (fd_orig f) /\ ty_ok d (fd_ty f) /\
  opt_all (default_ok (fd_ty f)) (fd_default f) /\ doc_ok (fd_doc f).
Definition variant_ok (d : nat) (v : variant) : Prop :=
  utf8 (v_name v) /\ opt_all utf8 (v_orig v) /\ opt_all (lit_ok TU64) (v_discr v) /\
  Forall (field_ok d) (v_fields v) /\ doc_ok (v_doc v).
(** Of a flat error's variants only the names are part of the interface. *)
Definition flat_variant_ok (v : variant) : Prop :=
  utf8 (v_name v) /\ opt_all utf8 (v_orig v) /\ v_discr v = None /\ v_fields v = [] /\
  doc_ok (v_doc v).
Definition utrait_ok (d : nat) (u : utrait) : Prop :=
  match u with
  | UTDebug s f | UTDisplay s f | UTHash s f | UTOrd s f => utf8 s /\ fn_ok d f
  | UTEq s f s' f' => utf8 s /\ fn_ok d f /\ utf8 s' /\ fn_ok d f'
  end.

(** An item the macros can record, with all its types at most [d] deep. *)
Definition recordable (d : nat) (m : metadata) : Prop :=
  match m with
  | MNamespace a b => utf8 a /\ utf8 b
  | MUdlFile a b c => utf8 a /\ utf8 b /\ utf8 c
  | MFunc f => fn_ok d f
  | MObject o => utf8 (o_mp o) /\ utf8 (o_name o) /\ opt_all utf8 (o_orig o) /\ doc_ok (o_doc o)
  | MCallback a b c => utf8 a /\ utf8 b /\ doc_ok c
  | MRecord r =>
      utf8 (r_mp r) /\ utf8 (r_name r) /\ opt_all utf8 (r_orig r) /\
      Forall (field_ok d) (r_fields r) /\ doc_ok (r_doc r)
  | MEnum e =>
      utf8 (e_mp e) /\ utf8 (e_name e) /\ opt_all utf8 (e_orig e) /\
      opt_all (ty_ok d) (e_discr_ty e) /\ doc_ok (e_doc e) /\
      Forall (if match e_shape e with ShError true => true | _ => false end
              then flat_variant_ok else variant_ok d) (e_variants e)
  | MConstructor s f => utf8 s /\ fn_ok d f /\ f_ret f = None /\ (1 <= d)%nat
  | MMethod s f => utf8 s /\ fn_ok d f
  | MTraitMethod s i f => utf8 s /\ fn_ok d f /\ 0 <= i < 2 ^ 32
  | MCustom a b t c => utf8 a /\ utf8 b /\ ty_ok d t /\ doc_ok c
  | MUniffiTrait u => utrait_ok d u
  | MTraitImpl t u => ty_ok d t /\ ty_ok d u
  end.

(** ** Items up to checksums

    The checksum is not recorded, it is computed by the reader. *)
Definition no_checksum_fn (f : fn_meta) : fn_meta :=
  Fn (f_mp f) (f_name f) (f_orig f) (f_async f) (f_inputs f) (f_ret f) (f_throws f) None (f_doc f).
Definition no_checksum (m : metadata) : metadata :=
  match m with
  | MFunc f => MFunc (no_checksum_fn f)
  | MConstructor s f => MConstructor s (no_checksum_fn f)
  | MMethod s f => MMethod s (no_checksum_fn f)
  | MTraitMethod s i f => MTraitMethod s i (no_checksum_fn f)
  | MUniffiTrait (UTDebug s f) => MUniffiTrait (UTDebug s (no_checksum_fn f))
  | MUniffiTrait (UTDisplay s f) => MUniffiTrait (UTDisplay s (no_checksum_fn f))
  | MUniffiTrait (UTHash s f) => MUniffiTrait (UTHash s (no_checksum_fn f))
  | MUniffiTrait (UTOrd s f) => MUniffiTrait (UTOrd s (no_checksum_fn f))
  | MUniffiTrait (UTEq s f s' f') =>
      MUniffiTrait (UTEq s (no_checksum_fn f) s' (no_checksum_fn f'))
  | _ => m
  end.
(** The checksum the bindings check, for the items that have one. *)
Definition item_checksum (m : metadata) : option Z :=
  match m with
  | MFunc f | MConstructor _ f | MMethod _ f | MTraitMethod _ _ f => f_checksum f
  | _ => None
  end.
Definition has_checksum (m : metadata) : Prop :=
  match m with
  | MFunc _ | MConstructor _ _ | MMethod _ _ | MTraitMethod _ _ _ => True
  | _ => False
  end.

(** The same item with another doc comment. *)
Definition set_doc (o : option str) (f : fn_meta) : fn_meta :=
  Fn (f_mp f) (f_name f) (f_orig f) (f_async f) (f_inputs f) (f_ret f) (f_throws f) (f_checksum f) o.

(** ** What each call appends to a buffer

    [part c p]: [p] are the bytes of the part that [c] adds. *)
Definition part (c : call) (p : bytes) : Prop :=
  match c with
  | CValue v => p = [v]
  | CLen n => exists l, p = [l] /\ b2n l = N.of_nat n
  | CU32 v => exists a b c e, p = [a; b; c; e] /\
      v = Z.of_N (b2n a) + 2 ^ 8 * Z.of_N (b2n b) + 2 ^ 16 * Z.of_N (b2n c) + 2 ^ 24 * Z.of_N (b2n e)
  | CBool v => p = [if v then x01 else x00]
  | CStr s => exists l, p = l :: s /\ b2n l = N.of_nat (length s)
  | CLong s => exists lo hi, p = lo :: hi :: s /\
      (b2n lo + 256 * b2n hi)%N = N.of_nat (length s)
  | CBuf c => c = Some p
  end.
(** The argument of [concat_u32] is a [u32]. *)
Definition typed_call (c : call) : Prop :=
  match c with CU32 v => 0 <= v < 2 ^ 32 | _ => True end.
