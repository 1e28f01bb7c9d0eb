(** C49 to C52: the JNI bindings for Kotlin. *)
From Coq Require Import Permutation.
From Verif Require Import Base Meta_Types Sort_Model Sort_Spec.
From Verif Require Import Jni_Model Jni_Spec Jni_Gen_Proofs Jni_Examples Jni_Refute.
Local Open Scope list_scope.
Local Open Scope Z_scope.

(** ** C49: buffers are laid out well *)

(** The fields of a record are aligned, inside it and apart. *)
Theorem C49_records flat ds g t fs :
  generate_root flat ds = Ret g -> interface ds -> names_distinct ds -> In (TDRecord t fs) ds ->
  exists l r, get (g_lay g) t = Ret l /\ offsets (g_lay g) builder_new fs = Ret (r, l) /\
    map snd r = fs /\ placed (g_lay g) 0 (l_size l) (l_align l) r.
Proof. intros G I N. exact (root_records flat ds g G I N t fs). Qed.
Print Assumptions C49_records.

(** So are those of each variant of an enum, after the four bytes of the discriminant. *)
Theorem C49_enums flat ds g t vs v :
  generate_root flat ds = Ret g -> interface ds -> names_distinct ds -> In (TDEnum t vs) ds -> In v vs ->
  exists l r, get (g_lay g) t = Ret l /\ variant_offsets (g_lay g) v = Ret r /\ map snd r = v /\
    placed (g_lay g) 4 (l_size l) (l_align l) r /\ 4 <= l_size l /\ (4 | l_align l).
Proof. intros G I N. exact (root_enums flat ds g G I N t vs v). Qed.
Print Assumptions C49_enums.

(** So is the content of an option, after the byte that says whether there is any. *)
Theorem C49_options flat ds g i :
  generate_root flat ds = Ret g -> interface ds -> names_distinct ds -> In (TDOptional (TOption i) i) ds ->
  exists l li o, get (g_lay g) (TOption i) = Ret l /\ get (g_lay g) i = Ret li /\
    some_offset g i = Ret o /\ 1 <= o /\ (l_align li | o) /\ (l_align li | l_align l) /\
    o + l_size li <= l_size l.
Proof. intros G I N. exact (root_options flat ds g G I N i). Qed.
Print Assumptions C49_options.

(** So are the items of a collection, however many there are. *)
Theorem C49_items_partial flat ds g t ts n :
  generate_root flat ds = Ret g -> interface ds -> names_distinct ds -> solid ds -> defined ds t ->
  coll_parts t = Some ts ->
  exists isz ps al, item_of (g_lay g) ts = Ret (isz, ps) /\ 0 < isz /\ map snd ps = ts /\
    0 < al <= 8 /\ map snd (items_at n isz ps 0) = cycle n ts /\
    placed (g_lay g) 0 (Z.of_nat n * isz) al (items_at n isz ps 0).
Proof. intros G I N. exact (root_items flat ds g G I N t ts n). Qed.
Print Assumptions C49_items_partial.

Example C49_satisfiable : generate_root no_flat ds1 = Ret g1 /\ interface ds1 /\ names_distinct ds1 /\ solid ds1.
Proof. exact (conj ds1_generates (conj ds1_interface (conj ds1_names ds1_solid))). Qed.

(** The layout of a flat error has no room for its message: a vector of them is written out of
    bounds. *)
Theorem C49_flat_errors_refuted : exists flat ds g t v,
  case flat ds g t v /\ solid ds /\ forall n, (3 <= n)%nat -> pass g n Rs t v h0 = Bad Undefined.
Proof. exact flat_out_of_bounds. Qed.
Print Assumptions C49_flat_errors_refuted.

(** Items without size: the generated code divides by zero and does not compile. *)
Theorem C49_empty_items_refuted : exists ds g t v,
  case no_flat ds g t v /\ forall s n, (3 <= n)%nat -> pass g n s t v h0 = Bad NoCode.
Proof. exact empty_items. Qed.
Print Assumptions C49_empty_items_refuted.

(** ** C50: values arrive *)

(** A value passed from one side arrives unchanged on the other, nothing leaks, and memory is only
    used as it may be, or memory runs out.  [good] says which values. *)
Theorem C50_arrives_partial flat ds g s n k t v h :
  generate_root flat ds = Ret g -> interface ds -> names_distinct ds -> solid ds -> defined ds t ->
  good g s n false t v -> (n <= k)%nat -> heap_ok h ->
  arrives (pass g k s t v h) v h.
Proof. intros G I N. exact (root_pass flat ds g G I N s n k t v h). Qed.
Print Assumptions C50_arrives_partial.

Example C50_satisfiable s : good g1 s 9 false (r_ "Scene") scene /\ defined ds1 (r_ "Scene") /\ heap_ok h0.
Proof. split; [exact (scene_good s)|]. split; [eexists; right; left; reflexivity|exact h0_ok]. Qed.

Theorem C50_nan_refuted : exists ds g v v',
  case no_flat ds g (TOption TF64) (VSome (VFloat v)) /\ solid ds /\ v <> v' /\
  forall s n, (3 <= n)%nat ->
    exists h, pass g n s (TOption TF64) (VSome (VFloat v)) h0 = Ret (VSome (VFloat v'), h).
Proof. exact nan_changed. Qed.
Print Assumptions C50_nan_refuted.

Theorem C50_handle_refuted : exists ds g t z, case no_flat ds g t (VSome (VObj z)) /\ solid ds /\
  forall n, (3 <= n)%nat -> exists h, pass g n Rs t (VSome (VObj z)) h0 = Ret (VNone, h).
Proof. exact handle_lost. Qed.
Print Assumptions C50_handle_refuted.

Theorem C50_nested_option_refuted : exists ds g t, case no_flat ds g t (VSome VNone) /\ solid ds /\
  forall n, (3 <= n)%nat -> exists h, pass g n Rs t (VSome VNone) h0 = Ret (VNone, h).
Proof. exact options_collapse. Qed.
Print Assumptions C50_nested_option_refuted.

Theorem C50_instant_refuted : exists ds g,
  case no_flat ds g TTimestamp (VInstant (-1) 500000000) /\ solid ds /\
  forall s n, (3 <= n)%nat ->
    exists h, pass g n s TTimestamp (VInstant (-1) 500000000) h0 = Ret (VInstant 0 500000000, h).
Proof. exact instant_flipped. Qed.
Print Assumptions C50_instant_refuted.

Theorem C50_duration_refuted : exists ds g secs secs',
  case no_flat ds g TDuration (VDuration secs 0) /\ solid ds /\ secs' < 0 /\
  forall n, (3 <= n)%nat -> exists h, pass g n Rs TDuration (VDuration secs 0) h0 = Ret (VDuration secs' 0, h).
Proof. exact duration_flipped. Qed.
Print Assumptions C50_duration_refuted.

(** Kotlin computes the size of a buffer in 32 bits; the Rust side writes past its end. *)
Theorem C50_long_list_refuted : exists ds g, interface ds /\ solid ds /\ generate_root no_flat ds = Ret g /\
  defined ds (TSeq TString) /\
  forall vs n, Z.of_nat (length vs) = 178956971 -> Forall (value ds no_flat 1 TString) vs -> (2 <= n)%nat ->
    pass g n Kt (TSeq TString) (VColl vs) h0 = Bad Undefined.
Proof. exact long_overflow. Qed.
Print Assumptions C50_long_list_refuted.

Example C50_long_list_exists : Z.of_nat (length (repeat (VStr []) (Z.to_nat 178956971))) = 178956971.
Proof. apply long_exists. discriminate. Qed.

(** Rust makes a JVM array of negative length. *)
Theorem C50_long_array_refuted : exists ds g, interface ds /\ solid ds /\ generate_root no_flat ds = Ret g /\
  defined ds (TSeq TI16) /\
  forall vs n, Z.of_nat (length vs) = 2 ^ 31 -> Forall (value ds no_flat 1 TI16) vs -> (2 <= n)%nat ->
    pass g n Rs (TSeq TI16) (VColl vs) h0 = Bad Undefined.
Proof. exact long_array. Qed.
Print Assumptions C50_long_array_refuted.

(** ** C51: the variants of an enum fit into its FFI values *)

(** The slots of a variant's fields are found; there are as many as each field has FFI values, of
    their types, no slot is used twice, and none is that of the discriminant. *)
Theorem C51_slots flat ds f t vs v :
  build_ffi flat [] ds = Ret f -> interface ds -> In (TDEnum t vs) ds -> flat t = false -> In v vs ->
  exists all tss slots,
    ffi_types f t = Ret all /\ nth_error all 0 = Some FtInt32 /\
    omap (ffi_types f) v = Ret tss /\ variant_slots f t v = Ret slots /\
    map (@length nat) slots = map (@length fty) tss /\
    NoDup (concat slots) /\
    forall i j sl ts ix, nth_error slots i = Some sl -> nth_error tss i = Some ts ->
      nth_error sl j = Some ix -> ix <> 0%nat /\ nth_error ts j = nth_error all ix.
Proof. exact (slots_found flat ds f t vs v). Qed.
Print Assumptions C51_slots.

(** The same for the generated code. *)
Theorem C51_generated flat ds g t vs v :
  generate_root flat ds = Ret g -> interface ds -> names_distinct ds ->
  In (TDEnum t vs) ds -> flat t = false -> In v vs ->
  exists all tss slots,
    ffi_types (g_ffi g) t = Ret all /\ nth_error all 0 = Some FtInt32 /\
    omap (ffi_types (g_ffi g)) v = Ret tss /\ variant_slots (g_ffi g) t v = Ret slots /\
    map (@length nat) slots = map (@length fty) tss /\
    NoDup (concat slots) /\
    forall i j sl ts ix, nth_error slots i = Some sl -> nth_error tss i = Some ts ->
      nth_error sl j = Some ix -> ix <> 0%nat /\ nth_error ts j = nth_error all ix.
Proof. intros G I N. exact (root_slots flat ds g G I N t vs v). Qed.
Print Assumptions C51_generated.

Example C51_satisfiable : variant_slots (g_ffi g1) (e_ "Shape") [TString; TOption (r_ "Point")] =
  Ret [[3]; [4; 1; 2]]%nat.
Proof. vm_compute. reflexivity. Qed.

(** ** C52: which interfaces get bindings *)

(** If the definitions come in an order in which each comes after what it contains. *)
Theorem C52_ordered_partial flat ds :
  interface ds -> ordered ds -> supported ds -> plain flat ds -> light ds ->
  exists g, generate flat ds = Ret g.
Proof. exact (generates flat ds). Qed.
Print Assumptions C52_ordered_partial.

(** In any order, if no definition contains something that needs it back. *)
Theorem C52_any_order_partial flat ds :
  interface ds -> names_distinct ds -> acyclic ds -> supported ds -> plain flat ds -> light ds ->
  exists g, generate_root flat ds = Ret g.
Proof. exact (generates_root flat ds). Qed.
Print Assumptions C52_any_order_partial.

Example C52_satisfiable : interface ds1 /\ names_distinct ds1 /\ acyclic ds1 /\ supported ds1 /\
  plain no_flat ds1 /\ light ds1.
Proof.
  exact (conj ds1_interface (conj ds1_names (conj ds1_acyclic (conj ds1_supported (conj ds1_plain ds1_light))))).
Qed.

(** Every interface with byte strings, durations, timestamps or callback interfaces in a record, enum,
    option or collection is refused. *)
Theorem C52_bytes_refuted flat ds d t :
  interface ds -> names_distinct ds -> In d ds -> In t (buffered d) -> ~ bufferable t ->
  forall g, generate_root flat ds <> Ret g.
Proof. intros I N D T B g G. exact (B (root_supported flat ds g G I N d t D T)). Qed.
Print Assumptions C52_bytes_refuted.

Example C52_bytes_satisfiable :
  let ds := [TDRecord (r_ "File") [TString; TBytes]] in
  interface ds /\ In TBytes (buffered (TDRecord (r_ "File") [TString; TBytes])) /\ ~ bufferable TBytes.
Proof. split; [iface|]. split; [right; left; reflexivity|]. intros []. Qed.

(** Records that contain each other through a vector are refused or not depending on their order. *)
Theorem C52_recursion_refuted : exists ds ds', Permutation ds ds' /\ interface ds /\ solid ds /\ supported ds /\
  plain no_flat ds /\ light ds /\
  generate_root no_flat ds = Bad Refused /\ exists g, generate_root no_flat ds' = Ret g.
Proof. exact recursion_refused. Qed.
Print Assumptions C52_recursion_refuted.

(** So is a record with an optional object that has a method taking the record. *)
Theorem C52_object_refuted : exists ds ds', Permutation ds ds' /\ interface ds /\ solid ds /\ supported ds /\
  plain no_flat ds /\ light ds /\
  generate_root no_flat ds = Bad Refused /\ exists g, generate_root no_flat ds' = Ret g.
Proof. exact object_refused. Qed.
Print Assumptions C52_object_refuted.

(** A record used in another crate is refused if that crate comes later. *)
Theorem C52_crates_refuted : exists here there,
  interface here /\ (exists g, generate_root no_flat here = Ret g) /\
  generate_root no_flat (here ++ there) = Bad Refused /\
  exists g, generate_root no_flat (there ++ here) = Ret g.
Proof. exact crates_refused. Qed.
Print Assumptions C52_crates_refuted.

(** The code generated for a record whose only FFI value is not that of its first field does not
    compile. *)
Theorem C52_empty_field_refuted : exists ds g t v,
  case no_flat ds g t v /\ forall s n, (3 <= n)%nat -> pass g n s t v h0 = Bad NoCode.
Proof. exact empty_first_field. Qed.
Print Assumptions C52_empty_field_refuted.

(** Nor does that for an optional record without fields. *)
Theorem C52_empty_option_refuted : exists ds g t v,
  case no_flat ds g t v /\ forall s n, (3 <= n)%nat -> pass g n s t v h0 = Bad NoCode.
Proof. exact empty_option. Qed.
Print Assumptions C52_empty_option_refuted.
