(** What the JNI bindings for Kotlin owe their users: which interfaces and values are meant, and what
    it means for buffers to be laid out well.  Nothing here computes offsets or runs generated
    code. *)
From Verif Require Import Base Meta_Types Sort_Model Sort_Spec Jni_Model.
Local Open Scope list_scope.
Local Open Scope Z_scope.

(** ** Interfaces *)

(** A definition is of the type it says. *)
Definition well_formed (d : type_definition) : Prop :=
  match d with
  | TDSimple _ | TDExternal _ => True
  | TDBox s i => s = TBox i
  | TDOptional s i => s = TOption i
  | TDSequence s i => s = TSeq i
  | TDMap s k v => s = TMap k v
  | TDSet s i => s = TSet i
  | TDRecord s _ => exists mp n, s = TRecord mp n
  | TDEnum s _ => exists mp n, s = TEnum mp n
  | TDInterface s _ _ _ => exists mp n i, s = TObject mp n i
  | TDCallback s _ => exists mp n, s = TCallback mp n
  | TDCustom s b => exists mp n, s = TCustom mp n b
  end.

(** The types a definition is made of. *)
Definition parts (d : type_definition) : list ty :=
  match d with
  | TDBox _ i | TDOptional _ i | TDSequence _ i | TDSet _ i | TDCustom _ i => [i]
  | TDMap _ k v => [k; v]
  | TDRecord _ fs => fs
  | TDEnum _ vs => concat vs
  | _ => []
  end.

(** A type has a definition among [ds], or needs none. *)
Definition defined (ds : list type_definition) (t : ty) : Prop :=
  match t with
  | TBox i => In (TDBox t i) ds
  | TOption i => In (TDOptional t i) ds
  | TSeq i => In (TDSequence t i) ds
  | TSet i => In (TDSet t i) ds
  | TMap k v => In (TDMap t k v) ds
  | TRecord _ _ => exists fs, In (TDRecord t fs) ds
  | TEnum _ _ => exists vs, In (TDEnum t vs) ds
  | TCustom _ _ b => In (TDCustom t b) ds
  | _ => True
  end.

(** Each type is defined once, and all types that are used are defined. *)
Record interface (ds : list type_definition) : Prop := {
  iface_formed : Forall well_formed ds;
  iface_once : NoDup (map self_type ds);
  iface_closed : forall d t, In d ds -> In t (parts d) -> defined ds t }.

(** No record without fields and no enum without variants: such a type takes no room. *)
Definition solid (ds : list type_definition) : Prop :=
  (forall s, ~ In (TDRecord s []) ds) /\ (forall s, ~ In (TDEnum s []) ds).

(** The variants of a flat error have no fields: only its message is passed. *)
Definition plain (flat : ty -> bool) (ds : list type_definition) : Prop :=
  forall t vs v, In (TDEnum t vs) ds -> flat t = true -> In v vs -> v = [].

(** The types whose values a definition has in its own: their layouts and FFI types are needed for
    those of the definition. *)
Definition direct (d : type_definition) : list ty :=
  match d with
  | TDOptional _ i | TDCustom _ i => [i]
  | TDRecord _ fs => fs
  | TDEnum _ vs => concat vs
  | _ => []
  end.

(** The types whose values a definition puts into buffers. *)
Definition buffered (d : type_definition) : list ty :=
  match d with
  | TDOptional _ i | TDSequence _ i | TDSet _ i => [i]
  | TDMap _ k v => [k; v]
  | TDRecord _ fs => fs
  | TDEnum _ vs => concat vs
  | _ => []
  end.

(** Byte strings, durations, timestamps and callback interfaces have no form in a buffer. *)
Fixpoint bufferable (t : ty) : Prop :=
  match t with
  | TBytes | TDuration | TTimestamp | TCallback _ _ => False
  | TCustom _ _ b => bufferable b
  | _ => True
  end.

Definition supported (ds : list type_definition) : Prop :=
  forall d t, In d ds -> In t (buffered d) -> bufferable t.

(** What a definition has in its own is defined before it. *)
Definition ordered (ds : list type_definition) : Prop :=
  forall l1 d l2, ds = l1 ++ d :: l2 -> forall t, In t (direct d) ->
  match t with
  | TRecord _ _ | TEnum _ _ | TOption _ | TCustom _ _ _ => In t (map self_type l1)
  | _ => True
  end.

(** What a definition has in its own does not need it back, not even through collections or the
    methods of objects. *)
Definition acyclic (ds : list type_definition) : Prop :=
  forall x y, In x ds -> In y ds -> In (self_type y) (direct x) ->
  match self_type y with
  | TRecord _ _ | TEnum _ _ | TOption _ | TCustom _ _ _ => ~ needs_within ds y x
  | _ => True
  end.

Definition total (w : ty -> Z) (ts : list ty) : Z := fold_right (fun t n => w t + 8 + n) 0 ts.

(** Weights of the types, so that no type is lighter than what it is made of, and none is of
    astronomical size. *)
Record weights (ds : list type_definition) (w : ty -> Z) : Prop := {
  w_range : forall t, 24 <= w t <= 2 ^ 60;
  w_custom : forall mp n b, w b <= w (TCustom mp n b);
  w_record : forall t fs, In (TDRecord t fs) ds -> total w fs <= w t;
  w_enum : forall t vs v, In (TDEnum t vs) ds -> In v vs -> 8 + total w v <= w t;
  w_option : forall t i, In (TDOptional t i) ds -> 8 + total w [i] <= w t }.

Definition light (ds : list type_definition) : Prop := exists w : ty -> Z, weights ds w.

(** ** Placing things in a buffer *)

(** Parts at these offsets are aligned, inside [size] bytes, and do not overlap, in a block aligned
    to [align]. *)
Record placed (m : lmap) (start size align : Z) (l : list (Z * ty)) : Prop := {
  placed_each : forall i o t, nth_error l i = Some (o, t) ->
    exists lt, get m t = Ret lt /\ 0 < l_align lt /\ (l_align lt | align) /\ (l_align lt | o) /\
               start <= o /\ o + l_size lt <= size;
  placed_apart : forall i j oi ti oj tj li,
    (i < j)%nat -> nth_error l i = Some (oi, ti) -> nth_error l j = Some (oj, tj) ->
    get m ti = Ret li -> oi + l_size li <= oj }.

(** ** Values *)

Definition good_string (s : list Z) : Prop :=
  Forall (fun c => 0 <= c <= 1114111 /\ ~ (55296 <= c <= 57343)) s /\
  Z.of_nat (length s) <= isize_max.

Definition int32_max : Z := 2147483647.

(** The content of an option that is passed on its own, outside a buffer, must not be the value the
    code uses for [None].  [from] is the side that sends it. *)
Definition not_niche (from : side) (i : ty) (v : val) : Prop :=
  match i, v with
  | TF32, VFloat b => b <> 2 ^ 32 - 1
  | TF64, VFloat b => b <> 2 ^ 64 - 1
  | TObject _ _ _, VObj z =>
      match from with
      | Rs => 0 < z
      | Kt => z <> 0
      end
  | _, _ => True
  end.

(** The integers of a type. *)
Definition int_fits (t : ty) (z : Z) : Prop :=
  match t with
  | TU8 => 0 <= z < 2 ^ 8 | TI8 => - 2 ^ 7 <= z < 2 ^ 7
  | TU16 => 0 <= z < 2 ^ 16 | TI16 => - 2 ^ 15 <= z < 2 ^ 15
  | TU32 => 0 <= z < 2 ^ 32 | TI32 => - 2 ^ 31 <= z < 2 ^ 31
  | TU64 => 0 <= z < 2 ^ 64 | TI64 => - 2 ^ 63 <= z < 2 ^ 63
  | _ => False
  end.

(** The types of the items of a collection, one after the other. *)
Fixpoint cycle (n : nat) (ts : list ty) : list ty :=
  match n with O => [] | S n => ts ++ cycle n ts end.

(** [value ds flat n t v]: [v] is a value of type [t], nested at most [n] deep. *)
Fixpoint value (ds : list type_definition) (flat : ty -> bool) (n : nat) (t : ty) (v : val) : Prop :=
  match n with
  | O => False
  | S n =>
      match t, v with
      | TBool, VBool _ => True
      | TF32, VFloat b => 0 <= b < 2 ^ 32
      | TF64, VFloat b => 0 <= b < 2 ^ 64
      | TString, VStr s => good_string s
      | TBytes, VBytes l => Forall (fun b => 0 <= b < 256) l
      | TDuration, VDuration secs nanos => 0 <= secs < 2 ^ 64 /\ 0 <= nanos < 1000000000
      | TTimestamp, VInstant secs nanos => - 2 ^ 63 <= secs < 2 ^ 63 /\ 0 <= nanos < 1000000000
      | TObject _ _ _, VObj z | TCallback _ _, VObj z => - 2 ^ 63 <= z < 2 ^ 63
      | TBox i, VBox v => value ds flat n i v
      | TCustom _ _ b, _ => value ds flat n b v
      | TOption i, VNone => True
      | TOption i, VSome v => value ds flat n i v
      | TSeq i, VColl vs | TSet i, VColl vs => Forall (value ds flat n i) vs
      | TMap k w, VColl vs =>
          exists len, length vs = (2 * len)%nat /\ Forall2 (value ds flat n) (cycle len [k; w]) vs
      | TRecord _ _, VRec vs =>
          exists fs, In (TDRecord t fs) ds /\ Forall2 (value ds flat n) fs vs
      | TEnum _ _, VEnum i vs =>
          flat t = false /\
          exists variants fs,
            In (TDEnum t variants) ds /\ nth_error variants i = Some fs /\ Forall2 (value ds flat n) fs vs
      | TEnum _ _, VFlat i msg =>
          flat t = true /\ good_string msg /\
          exists variants, In (TDEnum t variants) ds /\ (i < length variants)%nat
      | _, VInt z => int_fits t z
      | _, _ => False
      end
  end.

Section values.
  Variable g : gen.
  Variable from : side.

  (** The items fit into a buffer the JVM can handle. *)
  Definition fits (ts : list ty) (n : nat) : Prop :=
    forall x, item_of (g_lay g) ts = Ret x -> Z.of_nat n * fst x <= int32_max.

  (** [good n inb t v]: [v] is a value of type [t], nested at most [n] deep, that can be sent from
      [from]; [inb] says whether it is inside a buffer, that is, an item of a collection or part of
      one. *)
  Fixpoint good (n : nat) (inb : bool) (t : ty) (v : val) : Prop :=
    match n with
    | O => False
    | S n =>
        match t, v with
        | TBool, VBool _ => True
        | TF32, VFloat b => 0 <= b < 2 ^ 32
        | TF64, VFloat b => 0 <= b < 2 ^ 64
        | TString, VStr s => good_string s
        | TBytes, VBytes l =>
            inb = false /\ Forall (fun b => 0 <= b < 256) l /\ Z.of_nat (length l) <= int32_max
        | TDuration, VDuration secs nanos =>
            inb = false /\ 0 <= secs < 2 ^ 63 /\ 0 <= nanos < 1000000000
        | TTimestamp, VInstant secs nanos =>
            inb = false /\ instant_range secs = true /\ 0 <= nanos < 1000000000 /\
            (secs = -1 -> nanos = 0)
        | TObject _ _ _, VObj z => - 2 ^ 63 <= z < 2 ^ 63
        | TCallback _ _, VObj z => inb = false /\ - 2 ^ 63 <= z < 2 ^ 63
        | TBox i, VBox v => good n false i v
        | TCustom _ _ b, _ => good n inb b v
        | TOption i, VNone => inb = true \/ forall mp n, i <> TCallback mp n
        | TOption i, VSome v =>
            (inb = true \/ not_niche from i v /\ forall mp n, i <> TCallback mp n) /\
            is_null v = false /\ good n inb i v
        | TSeq i, VColl vs =>
            Forall (good n true i) vs /\
            match array_type i, inb with
            | Some _, false => Z.of_nat (length vs) <= int32_max
            | _, _ => fits [i] (length vs)
            end
        | TSet i, VColl vs => Forall (good n true i) vs /\ fits [i] (length vs)
        | TMap k w, VColl vs =>
            exists len, length vs = (2 * len)%nat /\
              Forall2 (good n true) (cycle len [k; w]) vs /\ fits [k; w] len
        | TRecord _ _, VRec vs =>
            exists fs, In (TDRecord t fs) (g_defs g) /\ Forall2 (good n inb) fs vs
        | TEnum _ _, VEnum i vs =>
            g_flat g t = false /\ Z.of_nat i < 2 ^ 31 /\
            exists variants fs,
              In (TDEnum t variants) (g_defs g) /\ nth_error variants i = Some fs /\
              Forall2 (good n inb) fs vs
        | TEnum _ _, VFlat i msg =>
            inb = false /\ from = Rs /\ g_flat g t = true /\ good_string msg /\
            Z.of_nat i < 2 ^ 31 /\
            exists variants, In (TDEnum t variants) (g_defs g) /\ (i < length variants)%nat
        | _, VInt z => int_fits t z
        | _, _ => False
        end
    end.
End values.

(** A heap as the program has it: address [0] is null, and addresses from [next] on are free. *)
Record heap_ok (h : heap) : Prop := {
  heap_null : cells h 0 = None;
  heap_next : 0 < next h;
  heap_fresh : forall a, next h <= a -> cells h a = None }.

(** The call returns this value and leaves the heap as it was, or memory ran out. *)
Definition arrives (r : out (val * heap)) (v : val) (h : heap) : Prop :=
  match r with
  | Ret (v', h') => v' = v /\ forall a, cells h' a = cells h a
  | Bad e => e = NoMemory
  end.
