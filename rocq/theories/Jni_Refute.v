(** Interfaces and values the JNI bindings for Kotlin get wrong. *)
From Coq Require Import Permutation Relation_Operators.
From Verif Require Import Base Meta_Types Canon_Model Sort_Model Sort_Spec.
From Verif Require Import Jni_Model Jni_Spec Jni_Layout_Proofs Jni_Mem_Proofs Jni_Proofs Jni_Gen_Proofs Jni_Examples.
Local Open Scope string_scope.
Local Open Scope list_scope.
Local Open Scope Z_scope.

(** What makes a case for the refutations: an interface that is generated, and a value of one of its
    types. *)
Definition case (flat : ty -> bool) (ds : list type_definition) (g : gen) (t : ty) (v : val) : Prop :=
  interface ds /\ plain flat ds /\ generate_root flat ds = Ret g /\ defined ds t /\ exists n, value ds flat n t v.

Definition gen_of (flat : ty -> bool) (ds : list type_definition) : gen :=
  match generate_root flat ds with Ret g => g | Bad _ => Gen [] flat [] [] end.

(** ** Flat errors in buffers *)

Definition err_flat (t : ty) : bool := ty_eqb t (e_ "Err").
Definition ds_flat : list type_definition :=
  [TDEnum (e_ "Err") [[]; []]; TDSequence (TSeq (e_ "Err")) (e_ "Err")].

Lemma flat_case : case err_flat ds_flat (gen_of err_flat ds_flat) (TSeq (e_ "Err")) (VColl [VFlat 0 []]).
Proof.
  split; [iface|]. split.
  { intros t vs v D F V. cbn in D. destruct D as [D|[D|[]]]; [|discriminate]. injection D as <- <-.
    destruct V as [<-|[<-|[]]]; reflexivity. }
  split; [vm_compute; reflexivity|]. split; [right; left; reflexivity|]. exists 2%nat.
  constructor; [|constructor]. split; [reflexivity|]. split; [apply ok_string_good; reflexivity|].
  eexists. split; [left; reflexivity|]. cbn. lia.
Qed.

Lemma flat_out_of_bounds : exists flat ds g t v,
  case flat ds g t v /\ solid ds /\ forall n, (3 <= n)%nat -> pass g n Rs t v h0 = Bad Undefined.
Proof.
  exists err_flat, ds_flat, (gen_of err_flat ds_flat), (TSeq (e_ "Err")), (VColl [VFlat 0 []]).
  split; [exact flat_case|]. split; [split; intros s D; cbn in D; intuition discriminate|].
  intros [|[|[|n]]] H; try lia. reflexivity.
Qed.

(** ** Items that take no room *)

Definition ds_empty : list type_definition :=
  [TDRecord (r_ "Empty") []; TDSequence (TSeq (r_ "Empty")) (r_ "Empty");
   TDRecord (r_ "Tagged") [r_ "Empty"; TI32];
   TDOptional (TOption (r_ "Empty")) (r_ "Empty")].

Lemma empty_iface : interface ds_empty /\ plain no_flat ds_empty /\
  generate_root no_flat ds_empty = Ret (gen_of no_flat ds_empty).
Proof. split; [iface|]. split; [intros t vs v D F; discriminate|]. vm_compute. reflexivity. Qed.

Lemma empty_items : exists ds g t v,
  case no_flat ds g t v /\ forall s n, (3 <= n)%nat -> pass g n s t v h0 = Bad NoCode.
Proof.
  exists ds_empty, (gen_of no_flat ds_empty), (TSeq (r_ "Empty")), (VColl [VRec []]).
  destruct empty_iface as (A & B & C). split.
  - split; [exact A|]. split; [exact B|]. split; [exact C|]. split; [right; left; reflexivity|].
    exists 2%nat. constructor; [|constructor]. exists []. split; [left; reflexivity|constructor].
  - intros s [|[|[|n]]] H; try lia. destruct s; reflexivity.
Qed.

Lemma empty_first_field : exists ds g t v,
  case no_flat ds g t v /\ forall s n, (3 <= n)%nat -> pass g n s t v h0 = Bad NoCode.
Proof.
  exists ds_empty, (gen_of no_flat ds_empty), (r_ "Tagged"), (VRec [VRec []; VInt 7]).
  destruct empty_iface as (A & B & C). split.
  - split; [exact A|]. split; [exact B|]. split; [exact C|]. split; [eexists; right; right; left; reflexivity|].
    exists 2%nat. eexists. split; [right; right; left; reflexivity|].
    constructor; [|constructor; [|constructor]].
    + exists []. split; [left; reflexivity|constructor].
    + cbn. lia.
  - intros s [|[|[|n]]] H; try lia. destruct s; reflexivity.
Qed.

Lemma empty_option : exists ds g t v,
  case no_flat ds g t v /\ forall s n, (3 <= n)%nat -> pass g n s t v h0 = Bad NoCode.
Proof.
  exists ds_empty, (gen_of no_flat ds_empty), (TOption (r_ "Empty")), VNone.
  destruct empty_iface as (A & B & C). split.
  - split; [exact A|]. split; [exact B|]. split; [exact C|]. split; [right; right; right; left; reflexivity|].
    exists 1%nat. exact I.
  - intros s [|[|[|n]]] H; try lia. destruct s; reflexivity.
Qed.

(** ** Options and plain values *)

Definition ds_opt : list type_definition :=
  [TDOptional (TOption TF64) TF64; TDOptional (TOption api) api;
   TDOptional (TOption (TOption TU8)) (TOption TU8); TDOptional (TOption TU8) TU8;
   TDInterface api [] [] None].

Lemma opt_iface : interface ds_opt /\ solid ds_opt /\ plain no_flat ds_opt /\
  generate_root no_flat ds_opt = Ret (gen_of no_flat ds_opt).
Proof.
  split; [iface|]. split; [split; intros s D; cbn in D; intuition discriminate|].
  split; [intros t vs v D F; discriminate|]. vm_compute. reflexivity.
Qed.

Ltac opt_case n :=
  destruct opt_iface as (A & S0 & B & C); split;
  [split; [exact A|]; split; [exact B|]; split; [exact C|]; split; [cbn; tauto|]; exists n|split; [exact S0|]].

(** [Some] of a NaN arrives as a tiny number that is no NaN. *)
Lemma nan_changed : exists ds g v v',
  case no_flat ds g (TOption TF64) (VSome (VFloat v)) /\ solid ds /\ v <> v' /\
  forall s n, (3 <= n)%nat ->
    exists h, pass g n s (TOption TF64) (VSome (VFloat v)) h0 = Ret (VSome (VFloat v'), h).
Proof.
  exists ds_opt, (gen_of no_flat ds_opt), (2 ^ 64 - 1), 4294443008. opt_case 2%nat; [cbn [value]; lia|].
  split; [lia|]. intros s [|[|[|n]]] H; try lia. exists h0. destruct s; reflexivity.
Qed.

(** An object whose handle has its top bit set arrives as [null]. *)
Lemma handle_lost : exists ds g t z, case no_flat ds g t (VSome (VObj z)) /\ solid ds /\
  forall n, (3 <= n)%nat -> exists h, pass g n Rs t (VSome (VObj z)) h0 = Ret (VNone, h).
Proof.
  exists ds_opt, (gen_of no_flat ds_opt), (TOption api), (signed 8 (180 * 2 ^ 56 + 4096)).
  opt_case 2%nat; [vm_compute; split; [discriminate|reflexivity]|].
  intros [|[|[|n]]] H; try lia. exists h0. reflexivity.
Qed.

(** [Some(None)] arrives as [None] in Kotlin. *)
Lemma options_collapse : exists ds g t, case no_flat ds g t (VSome VNone) /\ solid ds /\
  forall n, (3 <= n)%nat -> exists h, pass g n Rs t (VSome VNone) h0 = Ret (VNone, h).
Proof.
  exists ds_opt, (gen_of no_flat ds_opt), (TOption (TOption TU8)). opt_case 3%nat; [exact I|].
  intros [|[|[|n]]] H; try lia. exists h0. reflexivity.
Qed.

(** Half a second before the epoch arrives as half a second after it. *)
Lemma instant_flipped : exists ds g,
  case no_flat ds g TTimestamp (VInstant (-1) 500000000) /\ solid ds /\
  forall s n, (3 <= n)%nat ->
    exists h, pass g n s TTimestamp (VInstant (-1) 500000000) h0 = Ret (VInstant 0 500000000, h).
Proof.
  exists ds_opt, (gen_of no_flat ds_opt). opt_case 1%nat; [cbn [value]; lia|].
  intros s [|[|[|n]]] H; try lia. exists h0. destruct s; reflexivity.
Qed.

(** A very long duration arrives as a negative one. *)
Lemma duration_flipped : exists ds g secs secs',
  case no_flat ds g TDuration (VDuration secs 0) /\ solid ds /\ secs' < 0 /\
  forall n, (3 <= n)%nat -> exists h, pass g n Rs TDuration (VDuration secs 0) h0 = Ret (VDuration secs' 0, h).
Proof.
  exists ds_opt, (gen_of no_flat ds_opt), (2 ^ 63), (- 2 ^ 63). opt_case 1%nat; [cbn [value]; lia|].
  split; [lia|]. intros [|[|[|n]]] H; try lia. exists h0. reflexivity.
Qed.

(** ** Long collections *)

Definition ds_long : list type_definition :=
  [TDSequence (TSeq TString) TString; TDSequence (TSeq TI16) TI16].

Lemma long_iface : interface ds_long /\ solid ds_long /\ plain no_flat ds_long /\
  generate_root no_flat ds_long = Ret (gen_of no_flat ds_long).
Proof.
  split; [iface|]. split; [split; intros s D; cbn in D; intuition discriminate|].
  split; [intros t vs v D F; discriminate|]. vm_compute. reflexivity.
Qed.

(** The size of the buffer of 178956971 strings is computed as 8. *)
Lemma long_overflow : exists ds g, interface ds /\ solid ds /\ generate_root no_flat ds = Ret g /\
  defined ds (TSeq TString) /\
  forall vs n, Z.of_nat (length vs) = 178956971 -> Forall (value ds no_flat 1 TString) vs -> (2 <= n)%nat ->
    pass g n Kt (TSeq TString) (VColl vs) h0 = Bad Undefined.
Proof.
  exists ds_long, (gen_of no_flat ds_long). destruct long_iface as (A & S0 & B & C).
  split; [exact A|]. split; [exact S0|]. split; [exact C|]. split; [left; reflexivity|].
  intros vs n L F N. destruct n as [|[|n]]; try lia.
  unfold pass. cbn [codec_at step c_lower lower_step array_type int_of].
  cbv beta iota. unfold lower_coll.
  change (coll_info (gen_of no_flat ds_long) (TSeq TString)) with (@Ret (Z * list (Z * ty)) (24, [(0, TString)])).
  cbn [obind fst snd length]. cbv zeta. rewrite Nat.div_1_r, L.
  change (buf_size Kt (178956971 * 24)) with 8.
  change (buf_alloc 8 h0) with (@Ret (Z * heap) (8, Heap (upd (cells h0) 8 (Some (Bytes 8 (fun _ => None)))) 16)).
  cbn [obind fst snd].
  destruct vs as [|v vs]; [cbn in L; lia|]. inversion F as [|? ? V F']. subst.
  destruct v; try (destruct V; fail). cbn [length items_at map app write_fields fst snd].
  cbn [c_write step write_step]. assert (decode s = Ret s) as ->.
  { unfold decode. destruct (existsb surrogate s) eqn:E; [|reflexivity]. exfalso.
    apply existsb_exists in E. destruct E as (c & I & E). destruct V as [V _].
    pose proof (proj1 (Forall_forall _ _) V c I) as [_ K]. apply K.
    unfold surrogate in E. apply andb_true_iff in E. destruct E as [E1 E2]. apply Z.leb_le in E1, E2. lia. }
  cbn [obind]. unfold store_string, alloc_block. cbn [next].
  change (16 + 8 <=? max_address) with true. cbn [obind fst snd].
  unfold store at 3. cbn [cells]. change (upd (upd (cells h0) 8 (Some (Bytes 8 (fun _ => None)))) 16 (Some (Str s)) 8)
    with (Some (Bytes 8 (fun _ => None))). cbn [obind].
  change (access Rs 8 8 (0 + (0 + 0))) with (@Ret unit tt). cbn [obind].
  reflexivity.
Qed.

(** The length of an array of 2^31 items is computed as negative. *)
Lemma long_array : exists ds g, interface ds /\ solid ds /\ generate_root no_flat ds = Ret g /\
  defined ds (TSeq TI16) /\
  forall vs n, Z.of_nat (length vs) = 2 ^ 31 -> Forall (value ds no_flat 1 TI16) vs -> (2 <= n)%nat ->
    pass g n Rs (TSeq TI16) (VColl vs) h0 = Bad Undefined.
Proof.
  exists ds_long, (gen_of no_flat ds_long). destruct long_iface as (A & S0 & B & C).
  split; [exact A|]. split; [exact S0|]. split; [exact C|]. split; [right; left; reflexivity|].
  intros vs n L F N. destruct n as [|[|n]]; try lia.
  unfold pass. cbn [codec_at step c_lower lower_step array_type]. cbv beta iota.
  assert (exists l, omap (fun v => of_opt NoCode (to_item TI16 v)) vs = Ret l /\ length l = length vs) as (l & -> & E).
  { clear - F. induction F as [|v vs V F IH]; cbn [omap]; [exists []; split; reflexivity|].
    destruct v; try (destruct V; fail). change (of_opt NoCode (to_item TI16 (VInt z))) with (@Ret Z (signed 2 z)). cbn [obind].
    destruct IH as (l & -> & E). cbn [obind]. eexists. split; [reflexivity|]. cbn. now rewrite E. }
  cbn [obind]. unfold new_array. rewrite E, L. cbv zeta. change (signed 4 (2 ^ 31) <? 0) with true.
  reflexivity.
Qed.

Lemma long_exists (v : val) n : 0 <= n -> Z.of_nat (length (repeat v (Z.to_nat n))) = n.
Proof. intros H. rewrite repeat_length. lia. Qed.

(** ** Interfaces that are refused *)

Definition a_ : type_definition := TDRecord (r_ "A") [r_ "B"].
Definition b_ : type_definition := TDRecord (r_ "B") [TSeq (r_ "A")].
Definition l_ : type_definition := TDSequence (TSeq (r_ "A")) (r_ "A").

(** Records that contain each other through a vector: whether they are refused depends on the order
    they come in. *)
Definition w_ab (t : ty) : Z :=
  let b := base t in if ty_eqb b (r_ "A") then 200 else if ty_eqb b (r_ "B") then 100 else 24.

Lemma ab_light l : incl l [a_; b_; l_] -> light l.
Proof.
  intros IN. exists w_ab. constructor.
  - intros t. unfold w_ab. cbv zeta.
    repeat match goal with |- context [if ?b then _ else _] => destruct b end; lia.
  - intros mp n b. unfold w_ab. cbn [base]. lia.
  - intros t fs D. apply IN in D. cbn in D. decompose [or] D; try contradiction; try discriminate;
      match goal with E : _ = _ |- _ => injection E as <- <- end; vm_compute; discriminate.
  - intros t vs v D V. apply IN in D. cbn in D. decompose [or] D; try contradiction; discriminate.
  - intros t i D. apply IN in D. cbn in D. decompose [or] D; try contradiction; discriminate.
Qed.

Lemma recursion_refused : exists ds ds', Permutation ds ds' /\ interface ds /\ solid ds /\ supported ds /\
  plain no_flat ds /\ light ds /\
  generate_root no_flat ds = Bad Refused /\ exists g, generate_root no_flat ds' = Ret g.
Proof.
  exists [b_; a_; l_], [a_; b_; l_]. split; [apply perm_swap|]. split; [iface|].
  split; [split; intros s D; cbn in D; intuition discriminate|]. split.
  { intros d t D T. cbn in D. repeat (destruct D as [<-|D]); try (destruct D; fail); cbn in T;
      repeat (destruct T as [<-|T]); try (destruct T; fail); exact I. }
  split; [intros t vs v D F; discriminate|].
  split; [apply ab_light; intros x I; cbn in *; tauto|].
  split; [vm_compute; reflexivity|]. exists (gen_of no_flat [a_; b_; l_]). vm_compute. reflexivity.
Qed.

(** The same through an object: a record with an optional object that has a method taking the
    record. *)
Definition ds_obj : list type_definition :=
  [TDOptional (TOption api) api; TDRecord (r_ "R") [TOption api];
   TDInterface api [] [Callable [r_ "R"] None None] None].
Definition ds_obj' : list type_definition :=
  [TDRecord (r_ "R") [TOption api]; TDOptional (TOption api) api;
   TDInterface api [] [Callable [r_ "R"] None None] None].
Definition w_obj (t : ty) : Z :=
  let b := base t in if ty_eqb b (r_ "R") then 200 else if ty_eqb b (TOption api) then 100 else 24.

Lemma object_refused : exists ds ds', Permutation ds ds' /\ interface ds /\ solid ds /\ supported ds /\
  plain no_flat ds /\ light ds /\
  generate_root no_flat ds = Bad Refused /\ exists g, generate_root no_flat ds' = Ret g.
Proof.
  exists ds_obj, ds_obj'. split; [apply perm_swap|]. split; [iface|].
  split; [split; intros s D; cbn in D; intuition discriminate|]. split.
  { intros d t D T. cbn in D. repeat (destruct D as [<-|D]); try (destruct D; fail); cbn in T;
      repeat (destruct T as [<-|T]); try (destruct T; fail); exact I. }
  split; [intros t vs v D F; discriminate|]. split.
  { exists w_obj. constructor.
    - intros t. unfold w_obj. cbv zeta.
      repeat match goal with |- context [if ?b then _ else _] => destruct b end; lia.
    - intros mp n b. unfold w_obj. cbn [base]. lia.
    - intros t fs D. cbn in D. decompose [or] D; try contradiction; try discriminate;
        match goal with E : _ = _ |- _ => injection E as <- <- end; vm_compute; discriminate.
    - intros t vs v D V. cbn in D. decompose [or] D; try contradiction; discriminate.
    - intros t i D. cbn in D. decompose [or] D; try contradiction; try discriminate;
        match goal with E : _ = _ |- _ => injection E as <- <- end; vm_compute; discriminate. }
  split; [vm_compute; reflexivity|]. exists (gen_of no_flat ds_obj'). vm_compute. reflexivity.
Qed.

(** Two crates, one of which uses a record of the other: the order of the crates decides. *)
Lemma crates_refused : exists here there,
  interface here /\ (exists g, generate_root no_flat here = Ret g) /\
  generate_root no_flat (here ++ there) = Bad Refused /\
  exists g, generate_root no_flat (there ++ here) = Ret g.
Proof.
  exists [TDRecord (r_ "P") [TU8]], [TDExternal (r_ "P")]. split; [iface|].
  split; [exists (gen_of no_flat [TDRecord (r_ "P") [TU8]]); vm_compute; reflexivity|].
  split; [vm_compute; reflexivity|].
  exists (gen_of no_flat [TDExternal (r_ "P"); TDRecord (r_ "P") [TU8]]). vm_compute. reflexivity.
Qed.
