(** Values passed through the JNI bindings for Kotlin arrive unchanged. *)
From Coq Require Import Permutation.
From Verif Require Import Base Meta_Types Sort_Model Jni_Model Jni_Spec Jni_Layout_Proofs Jni_Mem_Proofs.
Local Open Scope list_scope.
Local Open Scope Z_scope.

Lemma store_wp s n a off z h len f : 0 < n -> heap_ok h -> cells h a = Some (Bytes len f) ->
  0 <= off -> off + n <= len -> (n | off) ->
  wp (store s n a off z h) (fun h1 => next h1 = next h /\ wrote a len off (off + n) h h1 /\
    forall s' h2, same_bytes a off (off + n) h1 h2 -> load s' n a off h2 = Ret (unsigned n z)).
Proof.
  intros A B C D E F. destruct (store_spec s n a off z h len f A B C D E F) as (h1 & R & N & W & L).
  rewrite R. cbn [wp]. auto.
Qed.

Lemma agree_wrote a len lo hi p q h1 h2 h3 : wrote a len lo hi h1 h2 -> a < p -> q <= next h1 ->
  agree p q h2 h3 -> agree p q h1 h3.
Proof. intros (_ & _ & C & _) L1 L2 A x X. rewrite A by assumption. apply C; lia. Qed.

Lemma wrote_next a len lo hi h h1 : wrote a len lo hi h h1 -> next h <= next h1.
Proof. intros W. apply W. Qed.

Lemma wrote_ok a len lo hi h h1 : wrote a len lo hi h h1 -> heap_ok h1.
Proof. intros W. apply W. Qed.

Lemma freed_next lo hi h h1 : freed lo hi h h1 -> next h <= next h1.
Proof. intros F. apply F. Qed.

Lemma freed_ok lo hi h h1 : freed lo hi h h1 -> heap_ok h1.
Proof. intros F. apply F. Qed.

Lemma grown_next h h1 : grown h h1 -> next h <= next h1.
Proof. intros F. apply F. Qed.

Lemma grown_ok h h1 : grown h h1 -> heap_ok h1.
Proof. intros F. apply F. Qed.

Lemma good_string_decode x : good_string x -> decode x = Ret x.
Proof.
  intros [F _]. unfold decode. replace (existsb surrogate x) with false; [reflexivity|].
  symmetry. induction F as [|c x [_ C] F IH]; cbn [existsb]; [reflexivity|]. rewrite IH, orb_false_r.
  unfold surrogate. destruct (Z.leb_spec 55296 c), (Z.leb_spec c 57343); cbn [andb]; try reflexivity. lia.
Qed.

Lemma ftys_eqb_refl l : ftys_eqb l l = true.
Proof. induction l; cbn [ftys_eqb]; [reflexivity|]. now rewrite fty_beq_refl. Qed.

Lemma Forall2_cycle {P : ty -> val -> Prop} i vs : Forall (P i) vs -> Forall2 P (cycle (length vs) [i]) vs.
Proof. induction 1; cbn [length cycle app]; constructor; auto. Qed.

(** ** Strings and buffers in memory *)

Lemma string_spec a off x h len f : heap_ok h -> cells h a = Some (Bytes len f) -> good_string x ->
  0 <= off -> off + 24 <= len -> (8 | off) ->
  wp (store_string a off x h) (fun h1 => wrote a len off (off + 24) h h1 /\
    reads_back a off (off + 24) h h1 (load_string a off) x).
Proof.
  intros O E GS P L D. destruct (heap_pos _ _ _ O E) as [A0 A1]. unfold store_string.
  assert (Z.of_nat (length x) <= isize_max) as XL by apply GS.
  apply wp_bind. eapply wp_mono; [apply alloc_block_spec; exact O|].
  intros [p h0] (G & -> & N0 & M & C & C'). cbn [fst snd] in *.
  assert (cells h0 a = Some (Bytes len f)) as E0 by (rewrite C' by lia; exact E).
  pose proof (grown_ok _ _ G) as O0.
  apply wp_bind. eapply wp_mono; [apply (store_wp Rs 8 a off _ h0 len f); auto; lia|].
  intros h1 (N1 & W1 & L1). destruct (wrote_bytes _ _ _ _ _ _ W1) as [f1 E1].
  apply wp_bind. eapply wp_mono;
    [apply (store_wp Rs 8 a (off + 8) _ h1 len f1);
       [lia|exact (wrote_ok _ _ _ _ _ _ W1)|exact E1|lia|lia|now apply Z.divide_add_r; [|exists 1]]|].
  intros h2 (N2 & W2 & L2). destruct (wrote_bytes _ _ _ _ _ _ W2) as [f2 E2].
  eapply wp_mono;
    [apply (store_wp Rs 8 a (off + 16) _ h2 len f2);
       [lia|exact (wrote_ok _ _ _ _ _ _ W2)|exact E2|lia|lia|now apply Z.divide_add_r; [|exists 2]]|].
  intros h3 (N3 & W3 & L3).
  assert (wrote a len off (off + 24) h h3) as W.
  { eapply wrote_grown; [exact A1|exact G|]. eapply wrote_trans; [eapply wrote_mono; [| |exact W1]; lia|].
    eapply wrote_trans; [eapply wrote_mono; [| |exact W2]; lia|]. eapply wrote_mono; [| |exact W3]; lia. }
  split; [exact W|]. intros h4 O4 N4 SB AG. unfold load_string.
  rewrite (L3 Rs h4) by (eapply same_bytes_sub; [| |exact SB]; lia).
  rewrite (L2 Rs h4).
  2:{ eapply same_bytes_wrote; [exact W3|left; lia|]. eapply same_bytes_sub; [| |exact SB]; lia. }
  rewrite (L1 Rs h4).
  2:{ eapply same_bytes_wrote; [exact W2|left; lia|]. eapply same_bytes_wrote; [exact W3|left; lia|].
      eapply same_bytes_sub; [| |exact SB]; lia. }
  cbn [obind]. pose proof (heap_next h O).
  assert (256 ^ 8 = 2 ^ 64) as PW by reflexivity.
  assert (next h + 8 <= 2 ^ 62) as M' by exact M.
  assert (isize_max = 2 ^ 63 - 1) as IM by reflexivity.
  rewrite !unsigned_id by (rewrite PW; lia).
  assert (cells h4 (next h) = Some (Str x)) as EX.
  { rewrite AG by lia. destruct W1 as (_ & _ & K1 & _), W2 as (_ & _ & K2 & _), W3 as (_ & _ & K3 & _).
    rewrite K3, K2, K1 by lia. exact C. }
  rewrite EX, Z.eqb_refl. cbn [andb wp fst snd]. split; [reflexivity|].
  split; [cbn; lia|]. split; [now apply free_ok|]. intros y. cbn [cells]. unfold upd. split.
  - intros Y. destruct (Z.eqb_spec y (next h)); [reflexivity|]. rewrite AG by lia.
    destruct W1 as (_ & _ & K1 & _), W2 as (_ & _ & K2 & _), W3 as (_ & _ & K3 & _).
    rewrite K3, K2, K1 by lia. rewrite C' by lia. apply (heap_fresh h O). lia.
  - intros Y. destruct (Z.eqb_spec y (next h)); [lia|reflexivity].
Qed.

Lemma buffer_spec a off p cap h len f : heap_ok h -> cells h a = Some (Bytes len f) ->
  0 <= p < 2 ^ 64 -> 0 <= cap < 2 ^ 64 -> 0 <= off -> off + 16 <= len -> (8 | off) ->
  wp (store_buffer a off p cap h) (fun h1 => next h1 = next h /\ wrote a len off (off + 16) h h1 /\
    forall h2, same_bytes a off (off + 16) h1 h2 -> load_buffer a off h2 = Ret (p, cap)).
Proof.
  intros O E PP PC P L D. unfold store_buffer.
  apply wp_bind. eapply wp_mono; [apply (store_wp Rs 8 a off _ h len f); auto; lia|].
  intros h1 (N1 & W1 & L1). destruct (wrote_bytes _ _ _ _ _ _ W1) as [f1 E1].
  eapply wp_mono;
    [apply (store_wp Rs 8 a (off + 8) _ h1 len f1);
       [lia|exact (wrote_ok _ _ _ _ _ _ W1)|exact E1|lia|lia|now apply Z.divide_add_r; [|exists 1]]|].
  intros h2 (N2 & W2 & L2). split; [lia|]. split.
  { eapply wrote_trans; eapply wrote_mono; [| |exact W1| | |exact W2]; lia. }
  intros h3 SB. unfold load_buffer.
  rewrite (L1 Rs h3).
  2:{ eapply same_bytes_wrote; [exact W2|left; lia|]. eapply same_bytes_sub; [| |exact SB]; lia. }
  rewrite (L2 Rs h3) by (eapply same_bytes_sub; [| |exact SB]; lia).
  cbn [obind]. assert (256 ^ 8 = 2 ^ 64) as PW by reflexivity.
  rewrite !unsigned_id by (rewrite PW; lia). reflexivity.
Qed.

(** ** The slots of a variant *)

Lemma NoDup_app_l {A} (l m : list A) : NoDup (l ++ m) -> NoDup l.
Proof.
  induction l as [|x l IH]; cbn [app]; intros H; [constructor|]. inversion H; subst. constructor; [|auto].
  intros I. apply H2. apply in_or_app. now left.
Qed.

Lemma pair_slots_ok slots : forall xs, map (@length nat) slots = map (@length fval) xs ->
  exists l, pair_slots slots xs = Ret l /\
    map (fun p => (fst p, fval_type (snd p))) l = slot_pairs slots (map (map fval_type) xs).
Proof.
  induction slots as [|sl slots IH]; intros [|x xs] E; cbn [map] in E; try discriminate.
  - exists []. split; reflexivity.
  - injection E as E1 E2. destruct (IH xs E2) as (l & P & Q). cbn [pair_slots].
    rewrite E1, Nat.eqb_refl, P. cbn [obind]. eexists. split; [reflexivity|].
    unfold slot_pairs in *. cbn [map combine concat fst snd]. rewrite map_app, Q. f_equal.
    clear - E1. revert x E1. induction sl as [|i sl IH]; intros [|v x] E1; try discriminate; cbn; [reflexivity|].
    f_equal. apply IH. now injection E1.
Qed.

Lemma take_slots_ok big slots : forall xs l, pair_slots slots xs = Ret l ->
  (forall ix v, In (ix, v) l -> nth_error big ix = Some v) -> take_slots big slots = Ret xs.
Proof.
  unfold take_slots. induction slots as [|sl slots IH]; intros [|x xs] l P H; cbn [pair_slots] in P; try discriminate.
  - reflexivity.
  - destruct (Nat.eqb_spec (length sl) (length x)) as [E|]; [|discriminate].
    ob P. assert (l = combine sl x ++ x0) as -> by congruence. cbn [omap].
    assert (omap (fun ix => of_opt NoCode (nth_error big ix)) sl = Ret x) as ->.
    { assert (forall ix v, In (ix, v) (combine sl x) -> nth_error big ix = Some v) as H1
        by (intros; apply H, in_or_app; now left).
      clear - E H1. revert x E H1. induction sl as [|i sl IH]; intros [|v x] E H1; try discriminate; [reflexivity|].
      cbn [omap]. rewrite (H1 i v) by now left. cbn [of_opt obind].
      rewrite (IH x); [reflexivity|now injection E|]. intros ix w I. apply H1. now right. }
    cbn [obind]. rewrite (IH xs x0 H0); [reflexivity|]. intros ix v I. apply H, in_or_app. now right.
Qed.

Lemma slot_value_in ix v l : NoDup (map fst l) -> In (ix, v) l -> slot_value ix l = Some v.
Proof.
  induction l as [|[i w] l IH]; intros ND I; [destruct I|]. cbn [map fst] in ND. inversion ND; subst.
  cbn [slot_value]. destruct I as [E|I].
  - injection E as <- <-. now rewrite Nat.eqb_refl.
  - destruct (Nat.eqb_spec ix i); [|auto]. subst. exfalso. apply H1.
    now apply (in_map fst) in I.
Qed.

Lemma slot_value_some ix v l : slot_value ix l = Some v -> In (ix, v) l.
Proof.
  induction l as [|[i w] l IH]; cbn [slot_value]; [discriminate|].
  destruct (Nat.eqb_spec ix i); intros H; [left; congruence|right; auto].
Qed.

Lemma NoDup_available all : NoDup (map fst (available all)).
Proof. rewrite available_slots. apply seq_NoDup. Qed.

Lemma combine_seq_nth {A} (l : list A) : forall k ix x, In (ix, x) (combine (seq k (length l)) l) ->
  exists j, ix = (k + j)%nat /\ nth_error (combine (seq k (length l)) l) j = Some (ix, x).
Proof.
  induction l as [|a l IH]; intros k ix x I; cbn [length seq combine] in *; [destruct I|].
  destruct I as [E|I].
  - exists O. injection E as <- <-. split; [lia|reflexivity].
  - destruct (IH _ _ _ I) as (j & -> & N). exists (S j). split; [lia|]. exact N.
Qed.

Lemma available_nth all ix t : In (ix, t) (available all) ->
  exists j, ix = S j /\ nth_error (available all) j = Some (ix, t).
Proof.
  rewrite available_spec. intros I. destruct all as [|x all]; [destruct I|].
  cbn [tl length] in *. rewrite Nat.sub_succ, Nat.sub_0_r in *.
  destruct (combine_seq_nth _ _ _ _ I) as (j & -> & N). exists j. split; [lia|exact N].
Qed.

(** What a variant puts into the slots comes out again, and the slots have the types they should. *)
Lemma slots_roundtrip all slots tss rest xs d :
  map (@length nat) slots = map (@length fty) tss ->
  Permutation (slot_pairs slots tss ++ rest) (available all) ->
  tss = map (map fval_type) xs ->
  exists l, pair_slots slots xs = Ret l /\ map fval_type (fill all l) = tl all /\
    take_slots (d :: fill all l) slots = Ret xs.
Proof.
  intros E PM ->.
  destruct (pair_slots_ok slots xs) as (l & P & Q).
  { rewrite E, map_map. apply map_ext. intros x. apply map_length. }
  exists l. split; [exact P|]. rewrite <- Q in PM. set (ty_of := fun p : nat * fval => (fst p, fval_type (snd p))) in *.
  pose proof (Permutation_map fst PM) as PF. rewrite map_app, map_map in PF.
  pose proof (Permutation_NoDup (Permutation_sym PF) (NoDup_available all)) as ND.
  apply NoDup_app_l in ND.
  change (NoDup (map fst l)) in ND.
  assert (forall ix v, In (ix, v) l -> In (ix, fval_type v) (available all)) as IA.
  { intros ix v I. eapply Permutation_in; [exact PM|]. apply in_or_app. left.
    apply (in_map ty_of) in I. exact I. }
  split.
  - unfold fill. rewrite map_map, <- available_types. apply map_ext_in. intros [ix t] I. cbn [fst snd].
    destruct (slot_value ix l) as [v|] eqn:SV.
    + apply slot_value_some in SV. apply IA in SV.
      pose proof (NoDup_map_inj fst _ _ _ (NoDup_available all) SV I eq_refl) as EQ. congruence.
    + destruct t; reflexivity.
  - eapply take_slots_ok; [exact P|]. intros ix v I. pose proof (IA _ _ I) as J.
    destruct (available_nth _ _ _ J) as (j & -> & N). cbn [nth_error]. unfold fill.
    rewrite (map_nth_error _ _ _ N). cbn [fst]. now rewrite (slot_value_in _ _ _ ND I).
Qed.

(** ** The code *)

Section codec.
  Context (flat : ty -> bool) (ds : list type_definition) (g : gen).
  Hypothesis GEN : generate flat ds = Ret g.
  Hypothesis IF : interface ds.
  Hypothesis SO : solid ds.
  Variable s : side.

  (** Lifting these FFI values, now or later, returns [v] and frees what lowering allocated. *)
  Definition lifts (n : nat) (t : ty) (v : val) (xs : list fval) (h h1 : heap) : Prop :=
    forall k h2, (n <= k)%nat -> heap_ok h2 -> next h1 <= next h2 -> agree (next h) (next h1) h1 h2 ->
    wp (c_lift (codec_at g k) (other s) t xs h2)
       (fun y => fst y = v /\ freed (next h) (next h1) h2 (snd y)).

  Definition lowers (n : nat) (t : ty) (v : val) : Prop :=
    forall k h, (n <= k)%nat -> heap_ok h ->
    wp (c_lower (codec_at g k) s t v h) (fun x =>
      grown h (snd x) /\ ffi_types (g_ffi g) t = Ret (map fval_type (fst x)) /\
      lifts n t v (fst x) h (snd x)).

  Definition writes (n : nat) (t : ty) (v : val) : Prop :=
    forall k h a off len f lt, (n <= k)%nat -> heap_ok h -> cells h a = Some (Bytes len f) ->
    get (g_lay g) t = Ret lt -> 0 <= off -> off + l_size lt <= len -> (l_align lt | off) ->
    wp (c_write (codec_at g k) s t a off v h) (fun h1 =>
      wrote a len off (off + l_size lt) h h1 /\
      forall k', (n <= k')%nat ->
        reads_back a off (off + l_size lt) h h1 (c_read (codec_at g k') (other s) t a off) v).

  Lemma typed_ok t xs : ffi_types (g_ffi g) t = Ret (map fval_type xs) -> typed g t xs = Ret tt.
  Proof. intros E. unfold typed. rewrite E. cbn [obind]. now rewrite ftys_eqb_refl. Qed.

  Lemma lowers_step n t v :
    (forall k h, (n <= k)%nat -> heap_ok h ->
      wp (lower_step g (codec_at g k) s t v h) (fun x =>
        grown h (snd x) /\ ffi_types (g_ffi g) t = Ret (map fval_type (fst x)) /\
        forall k' h2, (n <= k')%nat -> heap_ok h2 -> next (snd x) <= next h2 ->
          agree (next h) (next (snd x)) (snd x) h2 ->
          wp (lift_step g (codec_at g k') (other s) t (fst x) h2)
             (fun y => fst y = v /\ freed (next h) (next (snd x)) h2 (snd y)))) ->
    lowers (S n) t v.
  Proof.
    intros H k h K O. destruct k as [|k]; [lia|]. cbn [codec_at step c_lower].
    apply wp_bind. eapply wp_mono; [apply H; [lia|exact O]|]. intros x (G & T & L).
    rewrite (typed_ok _ _ T). cbn [obind wp]. split; [exact G|]. split; [exact T|].
    intros k' h2 K' O2 N2 A2. destruct k' as [|k']; [lia|]. cbn [codec_at step c_lift].
    rewrite (typed_ok _ _ T). cbn [obind]. apply L; auto. lia.
  Qed.

  Lemma writes_step n t v :
    (forall k h a off len f lt, (n <= k)%nat -> heap_ok h -> cells h a = Some (Bytes len f) ->
      get (g_lay g) t = Ret lt -> 0 <= off -> off + l_size lt <= len -> (l_align lt | off) ->
      wp (write_step g (codec_at g k) s t a off v h) (fun h1 =>
        wrote a len off (off + l_size lt) h h1 /\
        forall k', (n <= k')%nat ->
          reads_back a off (off + l_size lt) h h1 (read_step g (codec_at g k') (other s) t a off) v)) ->
    writes (S n) t v.
  Proof.
    intros H k h a off len f lt K O E GT P L D. destruct k as [|k]; [lia|]. cbn [codec_at step c_write].
    eapply wp_mono; [eapply H; eauto; lia|]. intros h1 (W & R). split; [exact W|].
    intros k' K'. destruct k' as [|k']; [lia|]. cbn [codec_at step c_read]. apply R. lia.
  Qed.

  (** Values without a block of their own. *)
  Lemma lowers_pure n t v xs :
    (forall c h, lower_step g c s t v h = Ret (xs, h)) ->
    (forall c h, lift_step g c (other s) t xs h = Ret (v, h)) ->
    ffi_types (g_ffi g) t = Ret (map fval_type xs) -> lowers (S n) t v.
  Proof.
    intros A B T. apply lowers_step. intros k h K O. rewrite A. cbn [wp fst snd].
    split; [now apply grown_refl|]. split; [exact T|]. intros k' h2 K' O2 N2 A2.
    rewrite B. cbn [wp fst snd]. split; [reflexivity|]. now apply freed_refl.
  Qed.

  Lemma writes_pure n t v w z : 0 < w ->
    get (g_lay g) t = Ret (Layout w w) ->
    (forall c a off h, write_step g c s t a off v h = store s w a off z h) ->
    (forall c a off h, load (other s) w a off h = Ret (unsigned w z) ->
       read_step g c (other s) t a off h = Ret (v, h)) ->
    writes (S n) t v.
  Proof.
    intros W0 GT A B. apply writes_step. intros k h a off len f lt K O E GT' P L D.
    assert (lt = Layout w w) as -> by congruence. cbn [l_size l_align] in *.
    rewrite A. eapply wp_mono; [eapply store_wp; eauto|]. intros h1 (N1 & W1 & L1).
    split; [exact W1|]. intros k' K' h2 O2 N2 SB AG.
    rewrite (B _ _ _ _ (L1 _ _ SB)). cbn [wp fst snd]. split; [reflexivity|].
    rewrite N1. now apply freed_refl.
  Qed.

  (** Fields. *)
  Lemma write_fields_spec n l : forall vs, Forall2 (writes n) (map snd l) vs ->
    forall k h a base lo hi al len f, (n <= k)%nat -> heap_ok h -> cells h a = Some (Bytes len f) ->
    laid (g_lay g) lo hi al l -> pow2 al -> (al | base) -> 0 <= base + lo -> base + hi <= len ->
    wp (write_fields (codec_at g k) s a base l vs h) (fun h1 =>
      wrote a len (base + lo) (base + hi) h h1 /\
      forall k', (n <= k')%nat ->
        reads_back a (base + lo) (base + hi) h h1 (read_fields (codec_at g k') (other s) a base l) vs).
  Proof.
    induction l as [|[o t] l IH]; intros vs F2 k h a base lo hi al len f K O E LA PA DB P L;
      cbn [map snd] in F2; inversion F2; subst; cbn [write_fields read_fields laid] in *.
    - cbn [wp]. split; [eapply wrote_refl; eassumption|]. intros k' K' h2 O2 N2 SB AG.
      cbn [wp fst snd]. split; [reflexivity|]. now apply freed_refl.
    - destruct LA as (lt & GT & L1 & L2 & L3 & L4 & L5 & L6). pose proof (laid_le _ _ _ _ _ L6).
      destruct (heap_pos _ _ _ O E) as [A0 A1].
      apply wp_bind. eapply wp_mono.
      { apply (H1 k h a (base + o) len f lt); auto; try lia.
        apply Z.divide_add_r; [|exact L2]. eapply Z.divide_trans; [|exact DB]. now apply pow2_divide. }
      intros h1 (W1 & R1). destruct (wrote_bytes _ _ _ _ _ _ W1) as [f1 E1].
      pose proof (wrote_next _ _ _ _ _ _ W1). pose proof (wrote_ok _ _ _ _ _ _ W1) as O1.
      eapply wp_mono.
      { apply (IH _ H3 k h1 a base (o + l_size lt) hi al len f1); auto. lia. }
      intros h2 (W2 & R2). pose proof (wrote_next _ _ _ _ _ _ W2). split.
      { eapply wrote_trans; eapply wrote_mono; [| |exact W1| | |exact W2]; lia. }
      intros k' K' h3 O3 N3 SB AG. apply wp_bind. eapply wp_mono.
      { apply (R1 k' K' h3 O3); [lia| |].
        - eapply same_bytes_wrote; [exact W2|left; lia|]. eapply same_bytes_sub; [| |exact SB]; lia.
        - eapply agree_wrote; [exact W2|lia|lia|]. eapply agree_sub; [exact AG|lia|lia]. }
      intros [v1 h4] [V1 F1]. cbn [fst snd] in *. subst v1. apply wp_bind. eapply wp_mono.
      { apply (R2 k' K' h4); [exact (freed_ok _ _ _ _ F1)|pose proof (freed_next _ _ _ _ F1); lia| |].
        - eapply same_bytes_freed; [|exact F1|left; lia]. eapply same_bytes_sub; [| |exact SB]; lia.
        - eapply agree_freed; [exact AG|lia|lia|exact F1]. }
      intros [v2 h5] [V2 F2']. cbn [fst snd wp] in *. subst v2. split; [reflexivity|].
      eapply freed_trans; [| |exact F1|exact F2']; lia.
  Qed.

  (** Collections. *)
  Lemma coll_spec n t ts len vs : defined ds t -> coll_parts t = Some ts ->
    length vs = (len * length ts)%nat -> Forall2 (writes n) (cycle len ts) vs -> fits g ts len ->
    forall k h, (n <= k)%nat -> heap_ok h ->
    wp (lower_coll g (codec_at g k) s t vs h) (fun x =>
      grown h (snd x) /\ 0 <= fst (fst x) < 2 ^ 62 /\ 0 <= snd (fst x) <= int32_max /\
      forall k' h2, (n <= k')%nat -> heap_ok h2 -> next (snd x) <= next h2 ->
        agree (next h) (next (snd x)) (snd x) h2 ->
        wp (lift_coll g (codec_at g k') (other s) t (fst (fst x)) (snd (fst x)) h2)
           (fun y => fst y = VColl vs /\ freed (next h) (next (snd x)) h2 (snd y))).
  Proof.
    intros DT CP LEN F2 FT k h K O.
    destruct (coll_layout _ _ _ GEN t ts SO DT CP) as (isz & ps & al & CI & IT & I0 & MS & PA & DA & LA).
    pose proof (FT _ IT) as FB. cbn [fst] in FB.
    assert (ts <> []) as NE by (destruct t; cbn [coll_parts] in CP; congruence).
    unfold lower_coll. rewrite CI. cbn [obind fst snd].
    assert (length ps = length ts) as LP by (rewrite <- MS; now rewrite map_length).
    assert (Nat.div (length vs) (length ps) = len) as ->.
    { rewrite LEN, LP. apply Nat.div_mul. destruct ts; [congruence|cbn; lia]. }
    assert (int32_max = 2147483647) as IM by reflexivity.
    assert (buf_size s (Z.of_nat len * isz) = Z.of_nat len * isz) as BS.
    { assert (0 <= Z.of_nat len * isz) by lia.
      unfold buf_size. destruct s.
      - apply unsigned_id. change (256 ^ 8) with (2 ^ 64). lia.
      - rewrite signed_id; [apply unsigned_id; change (256 ^ 8) with (2 ^ 64); lia|lia|].
        change (256 ^ 4 / 2) with (2 ^ 31). lia. }
    rewrite BS. clear BS. set (cap := Z.of_nat len * isz) in *.
    assert (Z.to_nat (cap / isz) = len) as CD.
    { unfold cap. rewrite Z.div_mul by lia. apply Nat2Z.id. }
    assert (forall s', (match s' with
                        | Kt => if 2147483647 <? cap then Bad Refused else Ret tt
                        | Rs => Ret tt end) = Ret tt) as LIM.
    { intros []; [reflexivity|]. destruct (Z.ltb_spec 2147483647 cap); [lia|reflexivity]. }
    unfold buf_alloc, buf_free. destruct (Z.eqb_spec cap 0) as [C0|C0].
    - assert (len = 0%nat) as L0 by (unfold cap in C0; nia). rewrite L0 in F2, CD |- *. cbn [cycle] in F2. inversion F2; subst vs.
      cbn [obind fst snd items_at write_fields wp]. split; [now apply grown_refl|].
      split; [lia|]. split; [lia|]. intros k' h2 K' O2 N2 A2. unfold lift_coll. rewrite CI. cbn [obind].
      cbn [fst snd]. rewrite LIM. cbn [obind]. rewrite CD. cbn [items_at read_fields obind fst snd].
      unfold buf_free. rewrite C0. cbn [Z.eqb obind wp fst snd]. split; [reflexivity|]. now apply freed_refl.
    - assert (0 < cap) by (unfold cap in *; lia).
      assert (isize_max = 2 ^ 63 - 1) as IS by reflexivity.
      replace (isize_max <? cap) with false by (symmetry; apply Z.ltb_ge; lia).
      apply wp_bind. eapply wp_mono; [apply alloc_block_spec; exact O|].
      intros [p h0] (G & -> & N0 & M & C & C'). cbn [fst snd] in *. pose proof (heap_next h O).
      pose proof (grown_ok _ _ G) as O0. apply wp_bind. eapply wp_mono.
      { eapply (write_fields_spec n (items_at len isz ps 0) vs) with (base := 0) (lo := 0) (hi := cap);
          [|exact K|exact O0|exact C| |exact PA|apply Z.divide_0_r|lia|lia].
        - rewrite items_at_types, MS. exact F2.
        - pose proof (items_at_laid g isz ps al PA DA I0 LA len 0 (Z.divide_0_r al)) as Q.
          exact Q. }
      intros h1 (W1 & R1). rewrite Z.add_0_l in *. cbn [wp fst snd].
      pose proof (wrote_next _ _ _ _ _ _ W1). pose proof (wrote_ok _ _ _ _ _ _ W1) as O1.
      assert (max_address = 2 ^ 62) as MA by reflexivity.
      assert (forall x, x < next h0 -> x <> next h -> cells h1 x = cells h x) as SAME.
      { intros x X Y. destruct W1 as (_ & _ & W & _). rewrite W by assumption. now apply C'. }
      split; [|split; [lia|split; [lia|]]].
      { split; [lia|]. split; [exact O1|]. intros x X. apply SAME; lia. }
      intros k' h2 K' O2 N2 AG. unfold lift_coll. rewrite CI. cbn [obind fst snd]. rewrite LIM. cbn [obind].
      rewrite CD. apply wp_bind. destruct (wrote_bytes _ _ _ _ _ _ W1) as [f1 E1].
      assert (cells h2 (next h) = Some (Bytes cap f1)) as E2 by (rewrite AG by lia; exact E1).
      eapply wp_mono.
      { apply (R1 k' K' h2 O2 N2).
        - exists cap, f1, f1. auto.
        - eapply agree_sub; [exact AG|lia|lia]. }
      intros [v1 h3] [V1 F1]. cbn [fst snd] in *. subst v1. unfold buf_free.
      replace (cap =? 0) with false by (symmetry; apply Z.eqb_neq; lia).
      destruct F1 as (N3 & O3 & F3). rewrite (proj2 (F3 (next h))) by lia. rewrite E2, Z.eqb_refl.
      cbn [obind wp fst snd]. split; [reflexivity|]. split; [cbn; lia|]. split; [now apply free_ok|].
      intros x. cbn [cells]. unfold upd. destruct (F3 x) as [F4 F5]. split.
      + intros X. destruct (Z.eqb_spec x (next h)); [reflexivity|].
        destruct (Z_lt_le_dec x (next h0)); [|apply F4; lia]. rewrite F5 by lia. rewrite AG by lia.
        rewrite SAME by lia. apply (heap_fresh h O). lia.
      + intros X. destruct (Z.eqb_spec x (next h)); [lia|]. apply F5. lia.
  Qed.

  (** Boxes. *)
  Lemma box_spec n i v : lowers n i v ->
    forall k h, (n <= k)%nat -> heap_ok h ->
    wp (lower_box (codec_at g k) s i (VBox v) h) (fun x =>
      grown h (snd x) /\ 0 <= fst x < 2 ^ 62 /\
      forall k' h2, (n <= k')%nat -> heap_ok h2 -> next (snd x) <= next h2 ->
        agree (next h) (next (snd x)) (snd x) h2 ->
        wp (lift_box (codec_at g k') (other s) i (fst x) h2)
           (fun y => fst y = VBox v /\ freed (next h) (next (snd x)) h2 (snd y))).
  Proof.
    intros LO k h K O. unfold lowers, lifts in LO.
    (* the block holds [v] and every other block from [next h] on is free *)
    assert (wp (lower_box (codec_at g k) s i (VBox v) h) (fun x =>
      grown h (snd x) /\ next h <= fst x < next (snd x) /\ fst x < max_address /\
      cells (snd x) (fst x) = Some (Boxed v) /\
      forall y, next h <= y -> y <> fst x -> cells (snd x) y = None)) as ST.
    { unfold lower_box. destruct s eqn:ES.
      - eapply wp_mono; [apply alloc_block_spec; exact O|]. intros [p h0] (G & -> & N0 & M & C & C').
        cbn [fst snd] in *. split; [exact G|]. split; [lia|]. split; [lia|]. split; [exact C|].
        intros y Y NY. rewrite C' by lia. now apply (heap_fresh h O).
      - apply wp_bind. eapply wp_mono; [apply (LO k h K O)|]. intros [xs h1] (G1 & T & LI). cbn [fst snd] in *.
        pose proof (grown_next _ _ G1). apply wp_bind. eapply wp_mono.
        { apply (LI k h1 K); [exact (grown_ok _ _ G1)|lia|apply agree_refl]. }
        intros [v2 h2] [V2 (N2 & O2 & F2)]. cbn [fst snd] in *. subst v2.
        eapply wp_mono; [apply alloc_block_spec; exact O2|]. intros [p h3] (G & -> & N0 & M & C & C').
        cbn [fst snd] in *.
        assert (forall y, next h <= y -> cells h2 y = None) as NO.
        { intros y Y. destruct (F2 y) as [F3 F4]. destruct (Z_lt_le_dec y (next h1)); [apply F3; lia|].
          rewrite F4 by lia. now apply (heap_fresh h1 (grown_ok _ _ G1)). }
        split.
        { destruct G as (A & B & D), G1 as (A1 & B1 & D1). split; [lia|]. split; [exact B|].
          intros x X. rewrite D by lia. rewrite (proj2 (F2 x)) by lia. apply D1. lia. }
        split; [lia|]. split; [lia|]. split; [exact C|]. intros y Y NY. rewrite C' by lia. now apply NO. }
    eapply wp_mono; [exact ST|]. intros [p h1] (G & B & M & C & NO). cbn [fst snd] in *.
    pose proof (heap_next h O). assert (max_address = 2 ^ 62) as MA by reflexivity.
    split; [exact G|]. split; [lia|]. intros k' h2 K' O2 N2 AG. unfold lift_box, take_box.
    rewrite AG by lia. rewrite C. cbn [obind fst snd].
    set (h3 := Heap (upd (cells h2) p None) (next h2)).
    assert (freed (next h) (next h1) h2 h3) as FR.
    { split; [cbn; lia|]. split; [now apply free_ok|]. intros x. cbn [cells h3]. unfold upd. split.
      - intros X. destruct (Z.eqb_spec x p); [reflexivity|]. rewrite AG by lia. apply NO; lia.
      - intros X. destruct (Z.eqb_spec x p); [lia|reflexivity]. }
    destruct s eqn:ES; cbn [other].
    - apply wp_bind. eapply wp_mono; [apply (LO k' h3 K' (freed_ok _ _ _ _ FR))|].
      intros [xs h4] (G4 & T & LI). cbn [fst snd] in *. pose proof (grown_next _ _ G4).
      apply wp_bind. eapply wp_mono.
      { apply (LI k' h4 K'); [exact (grown_ok _ _ G4)|lia|apply agree_refl]. }
      intros [v5 h5] [V5 (N5 & O5 & F5)]. cbn [fst snd wp] in *. subst v5. split; [reflexivity|].
      destruct FR as (N3 & O3 & F3), G4 as (A4 & B4 & D4).
      split; [lia|]. split; [exact O5|]. intros x. destruct (F5 x) as [F6 F7], (F3 x) as [F8 F9].
      assert (next h3 = next h2) as N32 by reflexivity.
      destruct (Z_lt_le_dec x (next h3)) as [LT|GE].
      + rewrite F7 by lia. rewrite D4 by lia. split; assumption.
      + split; [intros; lia|]. intros _. rewrite (heap_fresh h2 O2) by lia.
        destruct (Z_lt_le_dec x (next h4)); [apply F6; lia|]. rewrite F7 by lia.
        now apply (heap_fresh h4 B4).
    - cbn [wp fst snd]. split; [reflexivity|exact FR].
  Qed.

  (** Fields outside buffers. *)
  Lemma lower_each_spec n ts : forall vs, Forall2 (lowers n) ts vs ->
    forall k h, (n <= k)%nat -> heap_ok h ->
    wp (lower_each (codec_at g k) s ts vs h) (fun x =>
      grown h (snd x) /\ omap (ffi_types (g_ffi g)) ts = Ret (map (map fval_type) (fst x)) /\
      forall k' h2, (n <= k')%nat -> heap_ok h2 -> next (snd x) <= next h2 ->
        agree (next h) (next (snd x)) (snd x) h2 ->
        wp (lift_each (codec_at g k') (other s) ts (fst x) h2)
           (fun y => fst y = vs /\ freed (next h) (next (snd x)) h2 (snd y))).
  Proof.
    induction ts as [|t ts IH]; intros vs F2 k h K O; inversion F2; subst; cbn [lower_each omap].
    - cbn [wp fst snd map lift_each]. split; [now apply grown_refl|]. split; [reflexivity|].
      intros k' h2 K' O2 N2 A2. cbn [wp fst snd]. split; [reflexivity|]. now apply freed_refl.
    - apply wp_bind. eapply wp_mono; [apply (H1 k h K O)|]. intros [x h1] (G1 & T1 & L1). cbn [fst snd] in *.
      apply wp_bind. eapply wp_mono; [apply (IH _ H3 k h1 K (grown_ok _ _ G1))|].
      intros [xs h2] (G2 & T2 & L2). cbn [fst snd wp map] in *. rewrite T1, T2. cbn [obind].
      pose proof (grown_next _ _ G1). pose proof (grown_next _ _ G2).
      split; [eapply grown_trans; eassumption|]. split; [reflexivity|].
      intros k' h3 K' O3 N3 AG. cbn [lift_each]. apply wp_bind. eapply wp_mono.
      { apply (L1 k' h3 K' O3); [lia|].
        eapply agree_grown; [exact G2|lia|]. eapply agree_sub; [exact AG|lia|lia]. }
      intros [v h4] [V F4]. cbn [fst snd] in *. subst v. apply wp_bind. eapply wp_mono.
      { apply (L2 k' h4 K' (freed_ok _ _ _ _ F4)); [pose proof (freed_next _ _ _ _ F4); lia|].
        eapply agree_freed; [exact AG|lia|lia|exact F4]. }
      intros [vs h5] [V5 F5]. cbn [fst snd wp] in *. subst vs. split; [reflexivity|].
      eapply freed_trans; [| |exact F4|exact F5]; lia.
  Qed.

  Lemma split_fields_ok ts : forall xs, omap (ffi_types (g_ffi g)) ts = Ret (map (map fval_type) xs) ->
    split_fields g ts (concat xs) = Ret xs.
  Proof.
    induction ts as [|t ts IH]; intros xs H; cbn [omap split_fields] in *.
    - destruct xs; [reflexivity|discriminate].
    - ob H. ob H. destruct xs as [|x' xs]; [discriminate|]. cbn [map] in H.
      injection H as E1 E2. subst x x0. rewrite H0. cbn [obind concat].
      rewrite map_length, skipn_app, Nat.sub_diag, skipn_all, skipn_O. cbn [app].
      rewrite (IH _ H1). cbn [obind]. now rewrite firstn_app, Nat.sub_diag, firstn_all, firstn_O, app_nil_r.
  Qed.

  Lemma map_concat_map {A B} (f : A -> B) xs : map f (concat xs) = concat (map (map f) xs).
  Proof. apply concat_map. Qed.

  Lemma record_lowers n t fs vs : In (TDRecord t fs) ds -> (exists mp m, t = TRecord mp m) ->
    Forall2 (lowers n) fs vs -> defined ds t -> lowers (S n) t (VRec vs).
  Proof.
    intros I (mp & m & TE) F2 DT. apply lowers_step. intros k h K O.
    assert (lower_step g (codec_at g k) s t (VRec vs) h = lower_record g (codec_at g k) s t vs h) as ->
      by (rewrite TE; reflexivity).
    unfold lower_record. rewrite (gen_record _ _ _ GEN IF _ _ I). cbn [of_opt obind].
    destruct (ffi_defined _ _ _ GEN t DT) as [l FT]. rewrite FT. cbn [obind].
    pose proof (record_ffi _ _ _ GEN IF _ _ _ I FT) as FA. unfold ffi_types_all in FA. ob FA.
    apply wp_bind. eapply wp_mono; [apply (lower_each_spec n fs vs F2 k h K O)|].
    intros [xs h1] (G & T & L). cbn [fst snd] in *.
    assert (x = map (map fval_type) xs) as -> by congruence.
    assert (l = map fval_type (concat xs)) as -> by (rewrite map_concat_map; congruence).
    assert (wp (if Nat.eqb (length (map fval_type (concat xs))) 1
                then match xs with [v] :: _ => Ret ([v], h1) | _ => Bad NoCode end
                else Ret (concat xs, h1)) (fun y => y = (concat xs, h1))) as ST.
    { rewrite map_length. destruct (Nat.eqb_spec (length (concat xs)) 1) as [E1|]; [|reflexivity].
      assert (Forall (fun x => x <> []) xs) as NE.
      { apply Forall_forall. intros x IX E.
        assert (forall t', In t' fs -> forall l', ffi_types (g_ffi g) t' = Ret l' -> l' <> []) as NN
          by (intros t' _ l'; apply (ffi_nonempty _ _ _ GEN t' l' SO)).
        assert (In [] (map (map fval_type) xs)) as IN by (rewrite <- (map_map fval_type (fun x => x)) || idtac; subst x; apply (in_map (map fval_type)) in IX; exact IX).
        clear - H IN NN. revert H IN NN. generalize (map (map fval_type) xs). induction fs as [|t0 fs IH]; intros l H IN NN; cbn [omap] in H.
        - assert (l = []) as -> by congruence. destruct IN.
        - ob H. ob H. assert (l = x :: x0) as -> by congruence. destruct IN as [->|IN].
          + eapply NN; [now left|exact H0|reflexivity].
          + eapply IH; [exact H1|exact IN|]. intros. eapply NN; [right; eassumption|eassumption]. }
      destruct xs as [|x0 xs]; [discriminate|]. inversion NE; subst.
      destruct x0 as [|v0 x0]; [congruence|]. cbn [concat app length] in E1.
      destruct x0; [|cbn in E1; lia]. cbn [app] in *.
      destruct xs as [|x1 xs]; [reflexivity|]. inversion H3; subst. destruct x1; [congruence|].
      cbn in E1. lia. }
    eapply wp_mono; [exact ST|]. intros y ->. cbn [fst snd]. split; [exact G|]. split; [reflexivity|].
    intros k' h2 K' O2 N2 AG.
    assert (lift_step g (codec_at g k') (other s) t (concat xs) h2 =
            lift_record g (codec_at g k') (other s) t (concat xs) h2) as -> by (rewrite TE; reflexivity).
    unfold lift_record. rewrite (gen_record _ _ _ GEN IF _ _ I). cbn [of_opt obind].
    rewrite (split_fields_ok _ _ T). cbn [obind]. apply wp_bind. eapply wp_mono; [apply (L k' h2 K' O2 N2 AG)|].
    intros [v2 h3] [V2 F3]. cbn [fst snd wp] in *. subst v2. auto.
  Qed.

  Lemma enum_lowers n t variants i fs vs : In (TDEnum t variants) ds -> (exists mp m, t = TEnum mp m) ->
    flat t = false -> nth_error variants i = Some fs -> Z.of_nat i < 2 ^ 31 ->
    Forall2 (lowers n) fs vs -> defined ds t -> lowers (S n) t (VEnum i vs).
  Proof.
    intros I (mp & m & TE) FL NV IB F2 DT. apply lowers_step. intros k h K O.
    assert (lower_step g (codec_at g k) s t (VEnum i vs) h = lower_enum g (codec_at g k) s t (VEnum i vs) h)
      as -> by (rewrite TE; reflexivity).
    unfold lower_enum. rewrite (gen_enum _ _ _ GEN IF _ _ I). cbn [of_opt obind].
    rewrite (gen_flat _ _ _ GEN), FL, NV. cbn [of_opt obind].
    destruct (ffi_defined _ _ _ GEN t DT) as [l FT]. rewrite FT. cbn [obind].
    destruct (variant_slots_spec _ _ _ GEN IF t variants fs l I FL (nth_error_In _ _ NV) FT)
      as (tss & slots & rest & OM & VS & LN & PM & more & AE).
    rewrite VS. cbn [obind]. apply wp_bind. eapply wp_mono; [apply (lower_each_spec n fs vs F2 k h K O)|].
    intros [xs h1] (G & T & L). cbn [fst snd] in *.
    assert (tss = map (map fval_type) xs) as TS by congruence.
    destruct (slots_roundtrip l slots tss rest xs (FInt FtInt32 (Z.of_nat i)) LN PM TS) as (pl & P & FTY & TK).
    rewrite P. cbn [obind wp fst snd]. split; [exact G|]. split.
    { rewrite AE in *. cbn [map fval_type tl] in *. rewrite FTY. first [exact FT|reflexivity]. }
    intros k' h2 K' O2 N2 AG.
    assert (forall xs, lift_step g (codec_at g k') (other s) t xs h2 =
            lift_enum g (codec_at g k') (other s) t xs h2) as -> by (intros; rewrite TE; reflexivity).
    unfold lift_enum. rewrite (gen_enum _ _ _ GEN IF _ _ I), (gen_flat _ _ _ GEN), FL. cbn [of_opt obind].
    assert (i < length variants)%nat by (apply nth_error_Some; congruence).
    replace ((0 <=? Z.of_nat i) && (Z.of_nat i <? Z.of_nat (length variants))) with true
      by (symmetry; apply andb_true_intro; split; [apply Z.leb_le|apply Z.ltb_lt]; lia).
    rewrite Nat2Z.id, NV. cbn [of_opt obind]. rewrite VS. cbn [obind]. rewrite TK. cbn [obind].
    apply wp_bind. eapply wp_mono; [apply (L k' h2 K' O2 N2 AG)|].
    intros [v2 h3] [V2 F3]. cbn [fst snd wp] in *. subst v2. auto.
  Qed.

  Lemma record_writes n t fs vs : In (TDRecord t fs) ds -> (exists mp m, t = TRecord mp m) ->
    Forall2 (writes n) fs vs -> writes (S n) t (VRec vs).
  Proof.
    intros I (mp & m & TE) F2. apply writes_step. intros k h a off len f lt K O E GT P L D.
    destruct (record_layout _ _ _ GEN IF t fs lt I GT) as [r OF].
    assert (write_step g (codec_at g k) s t a off (VRec vs) h =
            (fs <-- of_opt NoCode (find_record (g_defs g) t) ;;;
             r <-- offsets (g_lay g) builder_new fs ;;;
             write_fields (codec_at g k) s a off (fst r) vs h)) as -> by (rewrite TE; reflexivity).
    rewrite (gen_record _ _ _ GEN IF _ _ I). cbn [of_opt obind]. rewrite OF. cbn [obind fst].
    pose proof (offsets_spec _ _ (gen_good _ _ _ GEN) _ _ _ _ builder_pow2 ltac:(cbn; lia) OF)
      as (LA & MS & _ & PA & _).
    cbn [builder_new l_size] in LA. eapply wp_mono.
    { eapply (write_fields_spec n r vs) with (base := off) (lo := 0) (hi := l_size lt);
        [rewrite MS; exact F2|exact K|exact O|exact E|exact LA|exact PA|exact D|lia|lia]. }
    intros h1 (W & R). rewrite Z.add_0_r in *. split; [exact W|].
    intros k' K' h2 O2 N2 SB AG.
    assert (read_step g (codec_at g k') (other s) t a off h2 =
            (fs <-- of_opt NoCode (find_record (g_defs g) t) ;;;
             r <-- offsets (g_lay g) builder_new fs ;;;
             x <-- read_fields (codec_at g k') (other s) a off (fst r) h2 ;;;
             Ret (VRec (fst x), snd x))) as -> by (rewrite TE; reflexivity).
    rewrite (gen_record _ _ _ GEN IF _ _ I). cbn [of_opt obind]. rewrite OF. cbn [obind fst].
    apply wp_bind. eapply wp_mono; [apply (R k' K' h2 O2 N2 SB AG)|].
    intros [v2 h3] [V2 F3]. cbn [fst snd wp] in *. subst v2. auto.
  Qed.

  Lemma enum_writes n t variants i fs vs : In (TDEnum t variants) ds -> (exists mp m, t = TEnum mp m) ->
    flat t = false -> nth_error variants i = Some fs -> Z.of_nat i < 2 ^ 31 ->
    Forall2 (writes n) fs vs -> writes (S n) t (VEnum i vs).
  Proof.
    intros I (mp & m & TE) FL NV IB F2. apply writes_step. intros k h a off len f lt K O E GT P L D.
    destruct (enum_layout _ _ _ GEN IF t variants fs lt I (nth_error_In _ _ NV) GT)
      as (r & VO & MS & SZ & AL & LA).
    destruct (good_get _ _ (gen_good _ _ _ GEN) _ _ GT) as (PA & _ & _).
    assert (write_step g (codec_at g k) s t a off (VEnum i vs) h =
            write_enum g (codec_at g k) s t a off (VEnum i vs) h) as -> by (rewrite TE; reflexivity).
    unfold write_enum. rewrite (gen_enum _ _ _ GEN IF _ _ I). cbn [of_opt obind].
    rewrite (gen_flat _ _ _ GEN), FL, NV.
    cbn [of_opt obind]. rewrite VO. cbn [obind].
    assert (4 | off) as D4.
    { eapply Z.divide_trans; [|exact D]. apply pow2_divide; [unfold pow2; lia|exact PA|exact AL]. }
    destruct (heap_pos _ _ _ O E) as [A0 A1].
    apply wp_bind. eapply wp_mono; [apply (store_wp s 4 a off _ h len f); auto; lia|].
    intros h0 (N0 & W0 & L0). destruct (wrote_bytes _ _ _ _ _ _ W0) as [f0 E0].
    eapply wp_mono.
    { eapply (write_fields_spec n r vs) with (base := off) (lo := 4) (hi := l_size lt);
        [rewrite MS; exact F2|exact K|exact (wrote_ok _ _ _ _ _ _ W0)|exact E0|exact LA|exact PA|exact D|lia|lia]. }
    intros h1 (W & R). split.
    { eapply wrote_trans; eapply wrote_mono; [| |exact W0| | |exact W]; lia. }
    intros k' K' h2 O2 N2 SB AG.
    assert (read_step g (codec_at g k') (other s) t a off h2 =
            read_enum g (codec_at g k') (other s) t a off h2) as -> by (rewrite TE; reflexivity).
    unfold read_enum. rewrite (gen_enum _ _ _ GEN IF _ _ I), (gen_flat _ _ _ GEN), FL. cbn [of_opt obind].
    rewrite (L0 (other s) h2).
    2:{ eapply same_bytes_wrote; [exact W|left; lia|]. eapply same_bytes_sub; [| |exact SB]; lia. }
    cbn [obind]. rewrite signed_unsigned by lia.
    rewrite signed_id by (try lia; change (256 ^ 4 / 2) with (2 ^ 31); lia).
    assert (i < length variants)%nat by (apply nth_error_Some; congruence).
    replace ((0 <=? Z.of_nat i) && (Z.of_nat i <? Z.of_nat (length variants))) with true
      by (symmetry; apply andb_true_intro; split; [apply Z.leb_le|apply Z.ltb_lt]; lia).
    rewrite Nat2Z.id, NV. cbn [of_opt obind]. rewrite VO. cbn [obind].
    apply wp_bind. rewrite <- N0 in *. eapply wp_mono.
    { apply (R k' K' h2 O2 N2); [eapply same_bytes_sub; [| |exact SB]; lia|exact AG]. }
    intros [v2 h3] [V2 F3]. cbn [fst snd wp] in *. subst v2. auto.
  Qed.

  (** Options. *)
  Lemma no_layout t : match t with TBytes | TDuration | TTimestamp | TCallback _ _ => True | _ => False end ->
    get (g_lay g) t = Bad Refused.
  Proof.
    intros H. destruct (get (g_lay g) t) as [l|e] eqn:E.
    2:{ destruct t; try destruct H; cbn [get] in E;
          match type of E with of_opt _ ?o = _ => destruct o end; cbn [of_opt] in E; congruence. }
    exfalso. assert (lookup t (g_lay g) = Some l) as L.
    { destruct t; try destruct H; cbn [get] in E;
        match type of E with of_opt _ ?o = _ => destruct o end; cbn [of_opt] in E; congruence. }
    destruct (gen_lay _ _ _ GEN) as [_ B]. destruct (B _ _ L) as (d & I & ST & D).
    pose proof (gen_formed _ IF _ I) as W.
    destruct d; cbn [def_layout] in D; try discriminate; cbn [self_type well_formed] in *; subst.
    - destruct H.
    - destruct W as (mp & m & ->). destruct H.
    - destruct W as (mp & m & ->). destruct H.
  Qed.

  Lemma option_plain i : defined ds (TOption i) -> (forall mp m, i <> TCallback mp m) ->
    match option_kind i with OMissing => False | OPlain => standard (TOption i) = None | _ => True end.
  Proof.
    intros DT NC. destruct i; cbn [option_kind]; try exact I; try reflexivity.
    - exfalso. eapply NC; reflexivity.
    - assert (defined ds (TSeq i)) as DS.
      { apply (iface_closed ds IF _ _ DT). now left. }
      destruct i; try reflexivity.
      destruct (coll_layout _ _ _ GEN _ _ SO DS eq_refl) as (isz & ps & al & _ & IT & _).
      unfold item_of in IT. ob IT. cbn [offsets] in H. ob H. rewrite no_layout in H0 by exact Logic.I. discriminate.
  Qed.

  Lemma none_lowers n i : defined ds (TOption i) -> (forall mp m, i <> TCallback mp m) ->
    defined ds i -> lowers (S n) (TOption i) VNone.
  Proof.
    intros DT NC DI. pose proof (option_plain i DT NC) as OP. destruct (option_kind i) eqn:OK.
    - apply (lowers_pure n _ _ [FInt FtInt64 i64_max]).
      + intros c h. cbn [lower_step lower_option]. unfold lower_option. now rewrite OK.
      + intros c h. cbn [lift_step]. unfold lift_option. now rewrite OK, Z.eqb_refl.
      + destruct i; cbn [option_kind] in OK; try discriminate; try reflexivity; destruct i; discriminate.
    - apply (lowers_pure n _ _ [FInt FtInt64 i64_max]).
      + intros c h. cbn [lower_step]. unfold lower_option. now rewrite OK.
      + intros c h. cbn [lift_step]. unfold lift_option. now rewrite OK, Z.eqb_refl.
      + destruct i; cbn [option_kind] in OK; try discriminate; try reflexivity; destruct i; discriminate.
    - apply (lowers_pure n _ _ [FInt FtInt32 (signed 4 4294967295)]).
      + intros c h. cbn [lower_step]. unfold lower_option. now rewrite OK.
      + intros c h. cbn [lift_step]. unfold lift_option. now rewrite OK.
      + destruct i; cbn [option_kind] in OK; try discriminate; try reflexivity; destruct i; discriminate.
    - apply (lowers_pure n _ _ [FInt FtInt64 (signed 8 18446744073709551615)]).
      + intros c h. cbn [lower_step]. unfold lower_option. now rewrite OK.
      + intros c h. cbn [lift_step]. unfold lift_option. now rewrite OK.
      + destruct i; cbn [option_kind] in OK; try discriminate; try reflexivity; destruct i; discriminate.
    - apply (lowers_pure n _ _ [FStr None]).
      + intros c h. cbn [lower_step]. unfold lower_option. now rewrite OK.
      + intros c h. cbn [lift_step]. unfold lift_option. now rewrite OK.
      + destruct i; cbn [option_kind] in OK; try discriminate; try reflexivity; destruct i; discriminate.
    - apply (lowers_pure n _ _ [FInt FtInt64 0]).
      + intros c h. cbn [lower_step]. unfold lower_option. now rewrite OK.
      + intros c h. cbn [lift_step]. unfold lift_option. rewrite OK. now destruct (other s).
      + destruct i; cbn [option_kind] in OK; try discriminate; try reflexivity; destruct i; discriminate.
    - destruct OP.
    - destruct (ffi_defined _ _ _ GEN i DI) as [l FT].
      pose proof (ffi_nonempty _ _ _ GEN i l SO FT) as NE.
      destruct (ffi_defined _ _ _ GEN (TOption i) DT) as [l' FT'].
      destruct (option_ffi _ _ _ GEN IF i l' DT OP FT') as (li & FI & ->).
      assert (li = l) as -> by congruence.
      assert (Nat.eqb (length l) 0 = false) as L0 by (destruct l; [congruence|reflexivity]).
      apply (lowers_pure n _ _ (FBool false :: map default_of l)).
      + intros c h. cbn [lower_step]. unfold lower_option. rewrite OK, FT. cbn [obind]. now rewrite L0.
      + intros c h. cbn [lift_step]. unfold lift_option. rewrite OK, FT. cbn [obind]. now rewrite L0.
      + rewrite FT'. cbn [map fval_type]. do 2 f_equal. rewrite map_map. symmetry. rewrite <- (map_id l) at 2.
        apply map_ext. now intros [].
  Qed.

  Lemma mk_some_ok v : is_null v = false -> mk_some (other s) v = VSome v.
  Proof. intros E. unfold mk_some. rewrite E. now destruct (other s). Qed.

  Lemma some_plain n i v : defined ds (TOption i) -> option_kind i = OPlain ->
    standard (TOption i) = None -> is_null v = false -> lowers n i v -> lowers (S n) (TOption i) (VSome v).
  Proof.
    intros DT OK OP NN LO. apply lowers_step. intros k h K O. cbn [lower_step]. unfold lower_option. rewrite OK.
    destruct (ffi_defined _ _ _ GEN (TOption i) DT) as [l' FT'].
    destruct (option_ffi _ _ _ GEN IF i l' DT OP FT') as (li & FI & ->).
    pose proof (ffi_nonempty _ _ _ GEN i li SO FI) as NE.
    assert (Nat.eqb (length li) 0 = false) as L0 by (destruct li; [congruence|reflexivity]).
    rewrite FI. cbn [obind]. rewrite L0. apply wp_bind. eapply wp_mono; [apply (LO k h K O)|].
    intros [xs h1] (G & T & L). cbn [fst snd wp] in *. split; [exact G|].
    assert (li = map fval_type xs) as -> by congruence. split; [exact FT'|].
    intros k' h2 K' O2 N2 AG. cbn [lift_step]. unfold lift_option. rewrite OK, FI. cbn [obind]. rewrite L0.
    apply wp_bind. eapply wp_mono; [apply (L k' h2 K' O2 N2 AG)|].
    intros [v2 h3] [V2 F3]. cbn [fst snd wp] in *. subst v2. split; [now apply mk_some_ok|exact F3].
  Qed.

  Lemma some_lowers n i v : defined ds (TOption i) -> (forall mp m, i <> TCallback mp m) ->
    not_niche s i v -> is_null v = false -> good g s n false i v -> lowers n i v ->
    lowers (S n) (TOption i) (VSome v).
  Proof.
    intros DT NC NN NU GO LO. pose proof (option_plain i DT NC) as OP. destruct n as [|n]; [destruct GO|].
    destruct (option_kind i) eqn:OK; try (destruct OP; fail).
    - assert (exists ft, int_of i = Some (ft, n0, sg)) as [ft IO].
      { destruct i; cbn [option_kind] in OK; try discriminate; try (destruct i; discriminate);
          injection OK as <- <-; eexists; reflexivity. }
      assert (exists z, v = VInt z /\ int_fits i z) as (z & -> & FZ).
      { destruct i; cbn [int_of] in IO; try discriminate; cbn [good] in GO; destruct v; try (destruct GO; fail); eauto. }
      destruct (int_of_fits _ _ _ _ _ IO FZ) as (P0 & AS & _ & _ & RG).
      assert (n0 < 8) as N8.
      { destruct i; cbn [option_kind] in OK; try discriminate; try (destruct i; discriminate);
          injection OK as <- <-; lia. }
      specialize (RG N8). assert (i64_max = 2 ^ 63 - 1) as IM by reflexivity.
      apply (lowers_pure (S n) _ _ [FInt FtInt64 z]).
      + intros c h. cbn [lower_step]. unfold lower_option. now rewrite OK.
      + intros c h. cbn [lift_step]. unfold lift_option. rewrite OK.
        destruct (Z.eqb_spec z i64_max); [lia|]. now rewrite AS.
      + destruct i; cbn [option_kind] in OK; try discriminate; try reflexivity; destruct i; discriminate.
    - destruct i; cbn [option_kind] in OK; try discriminate; try (destruct i; discriminate).
      cbn [good] in GO. destruct v; try (destruct GO; fail).
      apply (lowers_pure (S n) _ _ [FInt FtInt64 (if b then 1 else 0)]).
      + reflexivity.
      + intros c h. now destruct b.
      + reflexivity.
    - destruct i; cbn [option_kind] in OK; try discriminate; try (destruct i; discriminate).
      cbn [good not_niche] in GO, NN. destruct v; try (destruct GO; fail).
      assert (4294967295 = 2 ^ 32 - 1) as C by reflexivity. rewrite <- C in NN.
      apply (lowers_pure (S n) _ _ [FInt FtInt32 (signed 4 bits)]).
      + intros c h. cbn [lower_step]. unfold lower_option. cbn [option_kind].
        destruct (Z.eqb_spec bits 4294967295); [contradiction|reflexivity].
      + intros c h. cbn [lift_step]. unfold lift_option. cbn [option_kind].
        rewrite unsigned_signed by lia. rewrite unsigned_id by exact GO.
        destruct (Z.eqb_spec bits 4294967295); [contradiction|reflexivity].
      + reflexivity.
    - destruct i; cbn [option_kind] in OK; try discriminate; try (destruct i; discriminate).
      cbn [good not_niche] in GO, NN. destruct v; try (destruct GO; fail).
      assert (18446744073709551615 = 2 ^ 64 - 1) as C by reflexivity. rewrite <- C in NN.
      apply (lowers_pure (S n) _ _ [FInt FtInt64 (signed 8 bits)]).
      + intros c h. cbn [lower_step]. unfold lower_option. cbn [option_kind].
        destruct (Z.eqb_spec bits 18446744073709551615); [contradiction|reflexivity].
      + intros c h. cbn [lift_step]. unfold lift_option. cbn [option_kind].
        rewrite unsigned_signed by lia. rewrite unsigned_id by exact GO.
        destruct (Z.eqb_spec bits 18446744073709551615); [contradiction|reflexivity].
      + reflexivity.
    - destruct i; cbn [option_kind] in OK; try discriminate; try (destruct i; discriminate).
      cbn [good] in GO. destruct v as [| | |x| | | | | | | | | | |]; try (destruct GO; fail).
      apply (lowers_pure (S n) _ _ [FStr (Some x)]).
      + reflexivity.
      + intros c h. cbn [lift_step]. unfold lift_option. cbn [option_kind].
        destruct (other s); [|reflexivity]. now rewrite (good_string_decode _ GO).
      + reflexivity.
    - destruct i; cbn [option_kind] in OK; try discriminate; try (destruct i; discriminate).
      cbn [good not_niche] in GO, NN. destruct v as [| | | | | | | | | | | | |z|]; try (destruct GO; fail).
      apply lowers_step. intros k h K O. destruct k as [|k]; [lia|].
      cbn [lower_step]. unfold lower_option. cbn [option_kind].
      match goal with |- context [c_lower _ _ ?T (VObj z) h] =>
        change (c_lower (codec_at g (S k)) s T (VObj z) h)
          with (@Ret (list fval * heap) ([FInt FtInt64 z], h)) end.
      cbn [wp fst snd]. split; [now apply grown_refl|]. split; [reflexivity|].
      intros k' h2 K' O2 N2 AG. destruct k' as [|k']; [lia|].
      cbn [lift_step]. unfold lift_option. cbn [option_kind].
      replace (match other s with Rs => negb (z =? 0) | Kt => 0 <? z end) with true.
      2:{ symmetry. destruct s; cbn [other]; [now apply Z.ltb_lt|]. apply negb_true_iff, Z.eqb_neq. exact NN. }
      match goal with |- context [c_lift _ _ ?T [FInt FtInt64 z] h2] =>
        change (c_lift (codec_at g (S k')) (other s) T [FInt FtInt64 z] h2)
          with (@Ret (val * heap) (VObj z, h2)) end.
      cbn [obind wp fst snd]. split; [now apply mk_some_ok|]. now apply freed_refl.
    - now apply some_plain.
  Qed.

  Lemma option_writes n i v : defined ds (TOption i) -> is_null v = false ->
    writes n i v -> writes (S n) (TOption i) (VSome v).
  Proof.
    intros DT NU WR. apply writes_step. intros k h a off len f lt K O E GT P L D.
    destruct (option_layout _ _ _ GEN IF i lt DT GT) as (o & li & SOF & GI & O1 & DO & PI & AL & PL & SI & EN).
    cbn [write_step]. rewrite SOF. cbn [obind].
    apply wp_bind. eapply wp_mono; [apply (store_wp s 1 a off 1 h len f); auto; try lia; apply Z.divide_1_l|].
    intros h0 (N0 & W0 & L0). destruct (wrote_bytes _ _ _ _ _ _ W0) as [f0 E0].
    eapply wp_mono.
    { apply (WR k h0 a (off + o) len f0 li); auto; try lia; [exact (wrote_ok _ _ _ _ _ _ W0)|].
      apply Z.divide_add_r; [|exact DO]. eapply Z.divide_trans; [|exact D]. now apply pow2_divide. }
    intros h1 (W & R). split.
    { eapply wrote_trans; eapply wrote_mono; [| |exact W0| | |exact W]; lia. }
    intros k' K' h2 O2 N2 SB AG. cbn [read_step]. rewrite SOF. cbn [obind].
    rewrite (L0 (other s) h2).
    2:{ eapply same_bytes_wrote; [exact W|left; lia|]. eapply same_bytes_sub; [| |exact SB]; lia. }
    cbn [obind]. change (unsigned 1 1 =? 1) with true. cbv iota. apply wp_bind. rewrite <- N0 in *.
    eapply wp_mono; [apply (R k' K' h2 O2 N2); [eapply same_bytes_sub; [| |exact SB]; lia|exact AG]|].
    intros [v2 h3] [V2 F3]. cbn [fst snd wp] in *. subst v2. split; [now apply mk_some_ok|exact F3].
  Qed.

  Lemma none_writes n i : defined ds (TOption i) -> writes (S n) (TOption i) VNone.
  Proof.
    intros DT. apply writes_step. intros k h a off len f lt K O E GT P L D.
    destruct (option_layout _ _ _ GEN IF i lt DT GT) as (o & li & SOF & GI & O1 & DO & PI & AL & PL & SI & EN).
    cbn [write_step].
    eapply wp_mono; [apply (store_wp s 1 a off 0 h len f); auto; try lia; apply Z.divide_1_l|].
    intros h0 (N0 & W0 & L0). split; [eapply wrote_mono; [| |exact W0]; lia|].
    intros k' K' h2 O2 N2 SB AG. cbn [read_step]. rewrite SOF. cbn [obind].
    rewrite (L0 (other s) h2) by (eapply same_bytes_sub; [| |exact SB]; lia).
    cbn [obind]. change (unsigned 1 0 =? 1) with false. cbv iota. cbn [wp fst snd]. split; [reflexivity|].
    rewrite N0. now apply freed_refl.
  Qed.

  (** Sequences passed as arrays. *)
  Lemma array_ok n i a vs : array_type i = Some a -> Forall (good g s n true i) vs ->
    exists l, omap (fun v => of_opt NoCode (to_item i v)) vs = Ret l /\ map (of_item i) l = vs.
  Proof.
    intros AT. induction 1 as [|v vs GV F IH]; [exists []; split; reflexivity|].
    destruct IH as (l & OM & MP).
    assert (exists z, to_item i v = Some z /\ of_item i z = v) as (z & TZ & OZ).
    { destruct n as [|n]; [destruct GV|].
      assert ((exists ft w sg z, int_of i = Some (ft, w, sg) /\ v = VInt z /\ int_fits i z) \/
              (int_of i = None /\ exists b, v = VFloat b /\ to_item i v = Some b)) as C.
      { destruct i; cbn [array_type] in AT; try discriminate; cbn [good] in GV; destruct v; try (destruct GV; fail);
          first [left; do 4 eexists; split; [reflexivity|]; split; [reflexivity|exact GV]
                |right; split; [reflexivity|]; eexists; split; reflexivity]. }
      destruct C as [(ft & w & sg & z & IO & -> & FZ)|(IO & b & -> & TB)].
      - destruct (int_of_fits _ _ _ _ _ IO FZ) as (P0 & AS & _). exists (signed w z). unfold to_item, of_item.
        rewrite IO. split; [destruct i; reflexivity|]. now rewrite as_int_signed, AS.
      - exists b. split; [exact TB|]. unfold of_item. now rewrite IO. }
    exists (z :: l). cbn [omap map]. rewrite TZ. cbn [of_opt obind]. rewrite OM. cbn [obind].
    split; [reflexivity|]. now rewrite OZ, MP.
  Qed.

  Lemma new_array_ok l : Z.of_nat (length l) <= int32_max -> new_array s l = Ret l.
  Proof.
    intros L. unfold new_array. destruct s; [|reflexivity].
    assert (int32_max = 2 ^ 31 - 1) as IM by reflexivity.
    rewrite signed_id by (try lia; change (256 ^ 4 / 2) with (2 ^ 31); lia).
    destruct (Z.ltb_spec (Z.of_nat (length l)) 0); [lia|]. now rewrite Nat2Z.id, firstn_all.
  Qed.

  Lemma coll_lowers n t ts len vs : defined ds t -> coll_parts t = Some ts ->
    length vs = (len * length ts)%nat -> Forall2 (writes n) (cycle len ts) vs -> fits g ts len ->
    match t with TSeq i => array_type i = None | _ => True end ->
    lowers (S n) t (VColl vs).
  Proof.
    intros DT CP LEN F2 FT NA. apply lowers_step. intros k h K O.
    assert (lower_step g (codec_at g k) s t (VColl vs) h =
            (x <-- lower_coll g (codec_at g k) s t vs h ;;; Ret ([FBuf (Some (fst x))], snd x))) as ->.
    { destruct t; cbn [coll_parts] in CP; try discriminate; cbn [lower_step]; try reflexivity. now rewrite NA. }
    apply wp_bind. eapply wp_mono; [apply (coll_spec n t ts len vs); auto|].
    intros [[p cap] h1] (G & PB & CB & L). cbn [fst snd wp] in *. split; [exact G|]. split.
    { unfold ffi_types. destruct t; cbn [coll_parts] in CP; try discriminate; cbn [standard]; try reflexivity.
      now rewrite NA. }
    intros k' h2 K' O2 N2 AG.
    assert (lift_step g (codec_at g k') (other s) t [FBuf (Some (p, cap))] h2 =
            lift_coll g (codec_at g k') (other s) t p cap h2) as ->
      by (destruct t; cbn [coll_parts] in CP; try discriminate; reflexivity).
    apply L; auto.
  Qed.

  Lemma coll_writes n t ts len vs : defined ds t -> coll_parts t = Some ts ->
    length vs = (len * length ts)%nat -> Forall2 (writes n) (cycle len ts) vs -> fits g ts len ->
    writes (S n) t (VColl vs).
  Proof.
    intros DT CP LEN F2 FT. apply writes_step. intros k h a off len0 f lt K O E GT P L D.
    assert (lt = Layout 16 8) as -> by (destruct t; cbn [coll_parts] in CP; try discriminate; cbn [get] in GT; congruence).
    cbn [l_size l_align] in *. destruct (heap_pos _ _ _ O E) as [A0 A1].
    assert (write_step g (codec_at g k) s t a off (VColl vs) h =
            (x <-- lower_coll g (codec_at g k) s t vs h ;;;
             store_buffer a off (fst (fst x)) (snd (fst x)) (snd x))) as ->
      by (destruct t; cbn [coll_parts] in CP; try discriminate; reflexivity).
    apply wp_bind. eapply wp_mono; [apply (coll_spec n t ts len vs); auto|].
    intros [[p cap] h1] (G & PB & CB & LI). cbn [fst snd] in *.
    assert (cells h1 a = Some (Bytes len0 f)) as E1 by (destruct G as (_ & _ & G); rewrite G by lia; exact E).
    assert (int32_max = 2 ^ 31 - 1) as IM by reflexivity.
    eapply wp_mono; [apply (buffer_spec a off p cap h1 len0 f (grown_ok _ _ G) E1); auto; lia|].
    intros h2 (N2 & W2 & L2). split; [eapply wrote_grown; eassumption|].
    intros k' K' h3 O3 N3 SB AG.
    assert (read_step g (codec_at g k') (other s) t a off h3 =
            (p <-- load_buffer a off h3 ;;; lift_coll g (codec_at g k') (other s) t (fst p) (snd p) h3)) as ->
      by (destruct t; cbn [coll_parts] in CP; try discriminate; reflexivity).
    rewrite (L2 h3 SB). cbn [obind fst snd]. rewrite N2 in *. apply LI; auto.
    eapply agree_wrote; [exact W2|lia|lia|exact AG].
  Qed.

  Lemma box_lowers n i v : lowers n i v -> lowers (S n) (TBox i) (VBox v).
  Proof.
    intros LO. apply lowers_step. intros k h K O. cbn [lower_step]. apply wp_bind.
    eapply wp_mono; [apply (box_spec n i v LO k h K O)|]. intros [p h1] (G & PB & L). cbn [fst snd wp] in *.
    split; [exact G|]. split; [reflexivity|]. intros k' h2 K' O2 N2 AG. cbn [lift_step]. apply L; auto.
  Qed.

  Lemma box_writes n i v : lowers n i v -> writes (S n) (TBox i) (VBox v).
  Proof.
    intros LO. apply writes_step. intros k h a off len f lt K O E GT P L D. cbn [get] in GT.
    assert (lt = Layout 8 8) as -> by congruence. cbn [l_size l_align] in *.
    destruct (heap_pos _ _ _ O E) as [A0 A1]. cbn [write_step]. apply wp_bind.
    eapply wp_mono; [apply (box_spec n i v LO k h K O)|]. intros [p h1] (G & PB & LI). cbn [fst snd] in *.
    assert (cells h1 a = Some (Bytes len f)) as E1 by (destruct G as (_ & _ & G); rewrite G by lia; exact E).
    eapply wp_mono; [apply (store_wp s 8 a off p h1 len f); auto; try lia; exact (grown_ok _ _ G)|].
    intros h2 (N2 & W2 & L2). split; [eapply wrote_grown; eassumption|].
    intros k' K' h3 O3 N3 SB AG. cbn [read_step]. rewrite (L2 _ _ SB). cbn [obind].
    rewrite unsigned_id by (change (256 ^ 8) with (2 ^ 64); lia). rewrite N2 in *. apply LI; auto.
    eapply agree_wrote; [exact W2|lia|lia|exact AG].
  Qed.

  Lemma custom_lowers n mp m b v : defined ds (TCustom mp m b) -> lowers n b v -> lowers (S n) (TCustom mp m b) v.
  Proof.
    intros DT LO. apply lowers_step. intros k h K O. cbn [lower_step].
    eapply wp_mono; [apply (LO k h K O)|]. intros [xs h1] (G & T & L). cbn [fst snd] in *. split; [exact G|].
    split.
    { destruct (ffi_defined _ _ _ GEN _ DT) as [l FT]. rewrite FT.
      pose proof (custom_ffi _ _ _ GEN IF _ _ _ _ DT FT). congruence. }
    intros k' h2 K' O2 N2 AG. cbn [lift_step]. apply L; auto.
  Qed.

  Lemma custom_writes n mp m b v : writes n b v -> writes (S n) (TCustom mp m b) v.
  Proof.
    intros WR. apply writes_step. intros k h a off len f lt K O E GT P L D. cbn [get] in GT.
    cbn [write_step read_step]. eapply WR; eauto.
  Qed.

  Lemma string_writes n x : good_string x -> writes (S n) TString (VStr x).
  Proof.
    intros GS. apply writes_step. intros k h a off len f lt K O E GT P L D. cbn [get] in GT.
    assert (lt = Layout 24 8) as -> by congruence. cbn [l_size l_align] in *. cbn [write_step].
    replace (match s with Rs => Ret x | Kt => decode x end) with (Ret x)
      by (destruct s; [reflexivity|symmetry; now apply good_string_decode]).
    cbn [obind]. eapply wp_mono; [apply (string_spec a off x h len f); auto|].
    intros h1 (W & R). split; [exact W|]. intros k' K' h2 O2 N2 SB AG. cbn [read_step].
    apply wp_bind. eapply wp_mono; [apply (R h2 O2 N2 SB AG)|]. intros [v2 h3] [V2 F3].
    cbn [fst snd wp] in *. subst v2. auto.
  Qed.

  (** Integers. *)
  Lemma int_lowers n t z ft w sg : int_of t = Some (ft, w, sg) -> int_fits t z -> lowers (S n) t (VInt z).
  Proof.
    intros IO FZ. destruct (int_of_fits _ _ _ _ _ IO FZ) as (P0 & AS & _).
    destruct (int_of_layout (g_lay g) _ _ _ _ IO) as [_ ST].
    apply (lowers_pure n _ _ [FInt ft (signed w z)]).
    - intros c h. destruct t; cbn [int_of] in IO; try discriminate; injection IO as <- <- <-; reflexivity.
    - intros c h. pose proof (as_int_signed w sg z P0) as AQ.
      destruct t; cbn [int_of] in IO; try discriminate; injection IO as <- <- <-;
        cbn [lift_step int_of of_opt obind fst snd]; rewrite AQ, AS; reflexivity.
    - unfold ffi_types. now rewrite ST.
  Qed.

  Lemma int_writes n t z ft w sg : int_of t = Some (ft, w, sg) -> int_fits t z -> writes (S n) t (VInt z).
  Proof.
    intros IO FZ. destruct (int_of_fits _ _ _ _ _ IO FZ) as (P0 & AS & _).
    destruct (int_of_layout (g_lay g) _ _ _ _ IO) as [GT _].
    apply (writes_pure n t _ w z P0 GT).
    - intros c a off h. destruct t; cbn [int_of] in IO; try discriminate; injection IO as <- <- <-; reflexivity.
    - intros c a off h LD. pose proof (as_int_unsigned w sg z P0) as AQ.
      destruct t; cbn [int_of] in IO; try discriminate; injection IO as <- <- <-;
        cbn [read_step int_of of_opt obind fst snd]; rewrite LD; cbn [obind]; rewrite AQ, AS; reflexivity.
  Qed.

  Lemma instant_ok secs nanos : instant_range secs = true -> 0 <= nanos < 1000000000 ->
    (secs = -1 -> nanos = 0) ->
    let p := instant_to_parts secs nanos in
    instant_of_parts (fst p) (unsigned 4 (signed 4 (snd p))) = (secs, nanos).
  Proof.
    intros R N1 NM p. rewrite unsigned_signed by lia. subst p.
    assert (0 <= snd (instant_to_parts secs nanos) < 2 ^ 32) as B.
    { unfold instant_to_parts. destruct (0 <=? secs); [cbn [snd]; lia|]. destruct (nanos =? 0); cbn [snd]; lia. }
    rewrite unsigned_id by exact B. clear B. unfold instant_to_parts, instant_of_parts.
    destruct (Z.leb_spec 0 secs) as [S0|S0]; cbn [fst snd].
    - destruct (Z.leb_spec 0 secs); [reflexivity|lia].
    - destruct (Z.eqb_spec nanos 0) as [->|N0]; cbn [fst snd].
      + destruct (Z.leb_spec 0 secs); [lia|]. reflexivity.
      + destruct (Z.leb_spec 0 (secs + 1)).
        * exfalso. assert (secs = -1) by lia. auto.
        * destruct (Z.eqb_spec (1000000000 - nanos) 0); [lia|]. f_equal; lia.
  Qed.

  (** ** The values *)
  Lemma map_impl {P Q : ty -> val -> Prop} ts vs : (forall t v, In t ts -> P t v -> Q t v) ->
    Forall2 P ts vs -> Forall2 Q ts vs.
  Proof.
    intros H F. induction F; constructor; [apply H; [now left|assumption]|].
    apply IHF. intros. apply H; [now right|assumption].
  Qed.

  Lemma cycle_in n ts t : In t (cycle n ts) -> In t ts.
  Proof. induction n; cbn [cycle]; [intros []|]. intros I. apply in_app_or in I. tauto. Qed.

  Lemma codec_good n : forall inb t v, defined ds t -> good g s n inb t v ->
    (inb = false -> lowers n t v) /\ (inb = true -> writes n t v).
  Proof.
    induction n as [|n IH]; intros inb t v DT GO; [destruct GO|].
    assert (forall t v, defined ds t -> good g s n false t v -> lowers n t v) as IHL
      by (intros; now apply (IH false)).
    assert (forall t v, defined ds t -> good g s n true t v -> writes n t v) as IHW
      by (intros; now apply (IH true)).
    assert (forall ft w sg z, int_of t = Some (ft, w, sg) -> v = VInt z -> int_fits t z ->
      (inb = false -> lowers (S n) t v) /\ (inb = true -> writes (S n) t v)) as INT.
    { intros ft w sg z IO -> FZ. split; intros _; [eapply int_lowers|eapply int_writes]; eassumption. }
    destruct t; cbn [good] in GO.
    1-8: destruct v; try (destruct GO; fail); eapply INT; [reflexivity|reflexivity|exact GO].
    - (* f32 *) destruct v; try (destruct GO; fail). split; intros _.
      + apply (lowers_pure n _ _ [FFloat FtFloat32 bits]); reflexivity.
      + apply (writes_pure n _ _ 4 bits); try reflexivity. intros c a off h LD. cbn [read_step].
        rewrite LD. cbn [obind]. rewrite unsigned_id by exact GO. reflexivity.
    - (* f64 *) destruct v; try (destruct GO; fail). split; intros _.
      + apply (lowers_pure n _ _ [FFloat FtFloat64 bits]); reflexivity.
      + apply (writes_pure n _ _ 8 bits); try reflexivity. intros c a off h LD. cbn [read_step].
        rewrite LD. cbn [obind]. rewrite unsigned_id by exact GO. reflexivity.
    - (* bool *) destruct v; try (destruct GO; fail). split; intros _.
      + apply (lowers_pure n _ _ [FBool b]); reflexivity.
      + apply (writes_pure n _ _ 1 (if b then 1 else 0)); try reflexivity. intros c a off h LD. cbn [read_step].
        rewrite LD. cbn [obind]. now destruct b.
    - (* string *) destruct v; try (destruct GO; fail). split; intros _.
      + apply (lowers_pure n _ _ [FStr (Some s0)]); try reflexivity. intros c h. cbn [lift_step of_opt obind].
        destruct (other s); [|reflexivity]. now rewrite (good_string_decode _ GO).
      + now apply string_writes.
    - (* bytes *) destruct v; try (destruct GO; fail). destruct GO as (-> & FB & LB). split; [intros _|discriminate].
      apply (lowers_pure n _ _ [FArr FtByteArray (Some (map (signed 1) l))]); try reflexivity.
      + intros c h. cbn [lower_step]. now rewrite new_array_ok by (rewrite map_length; exact LB).
      + intros c h. cbn [lift_step of_opt obind]. do 3 f_equal. rewrite map_map. rewrite <- (map_id l) at 2.
        apply map_ext_in. intros b IB. rewrite unsigned_signed by lia. rewrite Forall_forall in FB.
        apply unsigned_id. exact (FB b IB).
    - (* timestamp *) destruct v; try (destruct GO; fail). destruct GO as (-> & IR & NB & NM).
      split; [intros _|discriminate].
      pose proof (instant_ok secs nanos IR NB NM) as IO. cbv zeta in IO.
      set (p := instant_to_parts secs nanos) in *.
      apply (lowers_pure n _ _ [FInt FtInt64 (fst p); FInt FtInt32 (signed 4 (snd p))]); try reflexivity.
      intros c h. cbn [lift_step]. cbv zeta. rewrite IO. cbn [fst snd]. destruct (other s); [reflexivity|].
      now rewrite IR.
    - (* duration *) destruct v; try (destruct GO; fail). destruct GO as (-> & SB & NB).
      split; [intros _|discriminate].
      apply (lowers_pure n _ _ [FInt FtInt64 (signed 8 secs); FInt FtInt32 (signed 4 nanos)]); try reflexivity.
      + intros c h. cbn [lower_step]. destruct s; [reflexivity|].
        destruct (Z.ltb_spec secs 0); [lia|reflexivity].
      + intros c h. cbn [lift_step]. destruct (other s).
        * rewrite !unsigned_signed by lia.
          rewrite !unsigned_id by (try (change (256 ^ 8) with (2 ^ 64)); try (change (256 ^ 4) with (2 ^ 32)); lia).
          reflexivity.
        * rewrite (signed_id 8) by (try lia; change (256 ^ 8 / 2) with (2 ^ 63); lia).
          rewrite (signed_id 4) by (try lia; change (256 ^ 4 / 2) with (2 ^ 31); lia). reflexivity.
    - (* object *) destruct v; try (destruct GO; fail). split; intros _.
      + apply (lowers_pure n _ _ [FInt FtInt64 h]); reflexivity.
      + apply (writes_pure n _ _ 8 h); try reflexivity. intros c a off h' LD. cbn [read_step].
        rewrite LD. cbn [obind]. rewrite signed_unsigned by lia.
        rewrite (signed_id 8) by (try lia; change (256 ^ 8 / 2) with (2 ^ 63); lia). reflexivity.
    - (* record *) destruct v; try (destruct GO; fail). destruct GO as (fs & I & F2).
      rewrite (gen_defs _ _ _ GEN) in I.
      assert (forall t, In t fs -> defined ds t) as DF
        by (intros t IT; exact (iface_closed ds IF _ _ I IT)).
      split; intros ->.
      + apply (record_lowers n _ fs); [exact I|eauto| |exact DT].
        eapply map_impl; [|exact F2]. intros t v IT GV. apply IHL; auto.
      + apply (record_writes n _ fs); [exact I|eauto|].
        eapply map_impl; [|exact F2]. intros t v IT GV. apply IHW; auto.
    - (* enum *) destruct v; try (destruct GO; fail).
      + destruct GO as (FL & IB & variants & fs & I & NV & F2).
        rewrite (gen_defs _ _ _ GEN) in I. rewrite (gen_flat _ _ _ GEN) in FL.
        assert (forall t, In t fs -> defined ds t) as DF.
        { intros t IT. apply (iface_closed ds IF _ _ I). cbn [parts]. apply in_concat. exists fs.
          split; [exact (nth_error_In _ _ NV)|exact IT]. }
        split; intros ->.
        * eapply (enum_lowers n); [exact I|eauto|exact FL|exact NV|exact IB| |exact DT].
          eapply map_impl; [|exact F2]. intros t v IT GV. apply IHL; auto.
        * eapply (enum_writes n); [exact I|eauto|exact FL|exact NV|exact IB|].
          eapply map_impl; [|exact F2]. intros t v IT GV. apply IHW; auto.
      + destruct GO as (-> & FR & FL & GS & IB & variants & I & LV). split; [intros _|discriminate].
        rewrite (gen_defs _ _ _ GEN) in I.
        apply (lowers_pure n _ _ [FInt FtInt32 (Z.of_nat i); FStr (Some msg)]).
        * intros c h. cbn [lower_step]. unfold lower_enum. rewrite (gen_enum _ _ _ GEN IF _ _ I).
          cbn [of_opt obind]. rewrite FL, FR. apply Nat.ltb_lt in LV. now rewrite LV.
        * intros c h. cbn [lift_step]. unfold lift_enum. rewrite (gen_enum _ _ _ GEN IF _ _ I).
          cbn [of_opt obind]. rewrite FL, FR. cbn [other].
          replace ((0 <=? Z.of_nat i) && (Z.of_nat i <? Z.of_nat (length variants))) with true
            by (symmetry; apply andb_true_intro; split; [apply Z.leb_le|apply Z.ltb_lt]; lia).
          now rewrite Nat2Z.id.
        * rewrite (gen_flat _ _ _ GEN) in FL. destruct (ffi_defined _ _ _ GEN _ DT) as [l FT].
          pose proof (enum_ffi_types _ _ _ GEN IF _ _ _ I FT) as EF. rewrite FL in EF. rewrite FT, EF. reflexivity.
    - (* callback *) destruct v; try (destruct GO; fail). destruct GO as [-> RB]. split; [intros _|discriminate].
      apply (lowers_pure n _ _ [FInt FtInt64 h]); reflexivity.
    - (* box *) destruct v; try (destruct GO; fail).
      assert (defined ds t) as DI by (apply (iface_closed ds IF _ _ DT); now left).
      split; intros _; [apply box_lowers|apply box_writes]; auto.
    - (* option *)
      assert (defined ds t) as DI by (apply (iface_closed ds IF _ _ DT); now left).
      destruct v; try (destruct GO; fail).
      + split; intros ->; [|now apply none_writes].
        destruct GO as [|NC]; [discriminate|]. now apply none_lowers.
      + destruct GO as (C & NU & GV). split; intros ->.
        * destruct C as [|[NN NC]]; [discriminate|]. apply some_lowers; auto.
        * apply option_writes; auto.
    - (* sequence *)
      assert (defined ds t) as DI by (apply (iface_closed ds IF _ _ DT); now left).
      destruct v; try (destruct GO; fail). destruct GO as [FV LB].
      assert (Forall2 (writes n) (cycle (length l) [t]) l) as FW.
      { apply Forall2_cycle. eapply Forall_impl; [|exact FV]. intros v GV. now apply IHW. }
      split; intros ->.
      + destruct (array_type t) as [ar|] eqn:AT.
        * destruct (array_ok n t ar l AT FV) as (zs & OM & MP).
          pose proof (omap_length _ _ _ OM) as LZ.
          apply (lowers_pure n _ _ [FArr ar (Some zs)]).
          -- intros c h. cbn [lower_step]. rewrite AT, OM. cbn [obind].
             rewrite new_array_ok by (rewrite LZ; exact LB). reflexivity.
          -- intros c h. cbn [lift_step of_opt obind]. now rewrite MP.
          -- unfold ffi_types. cbn [standard]. now rewrite AT.
        * apply (coll_lowers n _ [t] (length l)); auto. cbn [length]. lia.
      + apply (coll_writes n _ [t] (length l)); auto; [cbn [length]; lia|]. destruct (array_type t); exact LB.
    - (* set *)
      assert (defined ds t) as DI by (apply (iface_closed ds IF _ _ DT); now left).
      destruct v; try (destruct GO; fail). destruct GO as [FV LB].
      assert (Forall2 (writes n) (cycle (length l) [t]) l) as FW.
      { apply Forall2_cycle. eapply Forall_impl; [|exact FV]. intros v GV. now apply IHW. }
      split; intros ->; [apply (coll_lowers n _ [t] (length l))|apply (coll_writes n _ [t] (length l))]; auto;
        cbn [length]; lia.
    - (* map *)
      assert (defined ds t1) as DK by (apply (iface_closed ds IF _ _ DT); now left).
      assert (defined ds t2) as DV by (apply (iface_closed ds IF _ _ DT); right; now left).
      destruct v; try (destruct GO; fail). destruct GO as (len & LL & FV & LB).
      assert (Forall2 (writes n) (cycle len [t1; t2]) l) as FW.
      { eapply map_impl; [|exact FV]. intros t v IT GV. apply cycle_in in IT. apply IHW; [|exact GV].
        destruct IT as [<-|[<-|[]]]; assumption. }
      split; intros ->; [apply (coll_lowers n _ [t1; t2] len)|apply (coll_writes n _ [t1; t2] len)]; auto;
        cbn [length]; lia.
    - (* custom *)
      assert (defined ds t) as DB by (apply (iface_closed ds IF _ _ DT); now left).
      assert (good g s n inb t v) as GV by (destruct v; exact GO).
      split; intros ->; [apply custom_lowers|apply custom_writes]; auto.
  Qed.

  Lemma pass_good n k t v h : defined ds t -> good g s n false t v -> (n <= k)%nat -> heap_ok h ->
    arrives (pass g k s t v h) v h.
  Proof.
    intros DT GO K O. destruct (codec_good n false t v DT GO) as [LO _]. specialize (LO eq_refl).
    assert (wp (pass g k s t v h) (fun y => fst y = v /\ forall a, cells (snd y) a = cells h a)) as H.
    { unfold pass. apply wp_bind. eapply wp_mono; [apply (LO k h K O)|]. intros [xs h1] (G & T & L). cbn [fst snd] in *.
      eapply wp_mono; [apply (L k h1 K (grown_ok _ _ G)); [lia|apply agree_refl]|].
      intros [v2 h2] [V F]. cbn [fst snd] in *. split; [exact V|]. intros a.
      destruct F as (_ & _ & F). destruct (F a) as [F1 F2], G as (N & O1 & G).
      destruct (Z_lt_le_dec a (next h)); [rewrite F2 by lia; apply G; lia|].
      rewrite (heap_fresh h O) by lia. destruct (Z_lt_le_dec a (next h1)); [apply F1; lia|].
      rewrite F2 by lia. now apply (heap_fresh h1 O1). }
    unfold arrives. destruct (pass g k s t v h) as [[v' h']|e]; exact H.
  Qed.
End codec.
