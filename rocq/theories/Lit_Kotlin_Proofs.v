(** Kotlin reads the defaults written for it, with either generator, as the values meant. *)
From Coq Require Import QArith.QArith_base QArith.Qreduction.
From Verif Require Import Base Meta_Types Sort_Model Jni_Model Jni_Spec Jni_Layout_Proofs
  Lit_Spec Lit_Model Lit_Text_Proofs Lit_Proofs.
Local Open Scope list_scope.
Local Open Scope Z_scope.

(** * Kotlin *)

Lemma kt_read_null t v : kt_read t (S_ "null") = Some v -> v = VNone.
Proof.
  induction t; cbn [kt_read]; intros H;
    try (match type of H with context [kt_read] => fail 1 | _ => idtac end;
         vm_compute in H; congruence); auto.
  change (is_ (S_ "null") (S_ "null")) with true in H. congruence.
Qed.
Lemma kt_option t s v : kt_read t s = Some v -> kt_read (TOption t) s = Some v.
Proof.
  intros H. cbn [kt_read]. destruct (is_ s (S_ "null")) eqn:Q; [|exact H].
  apply is_eq in Q. subst. apply kt_read_null in H. now subst.
Qed.
Lemma kt_int_no c z r : digit_of c = None -> c <> x2d -> c <> x78 -> ~ In c (kt_int_text z r).
Proof.
  intros D A B. destruct r; cbn [kt_int_text]; [now apply dec_not_in| |].
  all: unfold show_hex; rewrite in_app_iff; change (S_ "0x") with [x30; x78];
    intros [[X|[X|[]]]|X]; [subst; discriminate|congruence|].
  all: exact (fmt_not_in c 16 _ ltac:(lia) D X).
Qed.
Lemma no_conv p z r sfx : ~ In x29 sfx -> strip_end (p ++ [x29]) (kt_int_text z r ++ sfx) = None.
Proof.
  intros H. apply strip_end_none. rewrite in_app_iff. intros [X|X]; [|auto].
  revert X. apply kt_int_no; [reflexivity|discriminate|discriminate].
Qed.
Lemma range_signed t z : in_range t z = true -> (t = TI8 \/ t = TI16 \/ t = TI32 \/ t = TI64) ->
  z < 2 ^ 63.
Proof.
  unfold in_range. intros R [-> | [-> | [-> | ->]]]; cbn [range_of] in R; lia.
Qed.
Lemma kt_read_int t z r : in_range t z = true -> ok_radix z r -> - 2 ^ 63 < z ->
  exists s, kt_number t (kt_int_text z r) = Some s /\ kt_read t s = Some (VInt z).
Proof.
  intros R K M. pose proof (in_range_64 _ _ R) as B.
  destruct t; try discriminate R; (eexists; split; [reflexivity|]); cbn [kt_read].
  all: try (match goal with |- context [kt_small _ ?c _] =>
      unfold kt_small;
      assert (exists p, c = p ++ [x29]) as (p & ->) by (eexists (removelast c); reflexivity)
    end).
  all: try (rewrite <- (app_nil_r (kt_int_text z r)) at 1; rewrite no_conv by (intros []);
    cbn [or_else]).
  all: try (rewrite no_conv by (cbn; intuition discriminate); cbn [or_else]).
  all: try (unfold kt_suffixed; cbn [fold_right]; rewrite strip_end_app, kt_unsigned_text
              by (unfold in_range in R; cbn [range_of] in R; lia);
            cbn [fits]; rewrite R; reflexivity).
  all: assert (z < 2 ^ 63) as L by (eapply range_signed; [exact R|tauto]).
  all: try rewrite strip_end_app.
  all: rewrite kt_signed_text by (try exact K; lia); cbn [fits]; rewrite R; reflexivity.
Qed.
Lemma kt_natural_ok N t v : names_ok N -> meaning N t DDefault = Some v ->
  exists s, kt_default N t DDefault = Some s /\ kt_read t s = Some v.
Proof.
  intros [NC NV]. induction t; cbn [meaning kt_default]; intros H; try discriminate;
    try (injection H as <-; eexists; split; [reflexivity|]; vm_compute; reflexivity).
  - injection H as <-. eexists; split; [reflexivity|]. cbn [kt_read].
    now rewrite strip_end_app, NC.
  - injection H as <-. eexists; split; [reflexivity|]. cbn [kt_read].
    now rewrite strip_end_app, NC.
  - auto.
Qed.
Lemma kt_enum n v mp m : path n = true -> ident v = true ->
  kt_read (TEnum mp m) (n ++ S_ "." ++ v) = Some (VEnum n v).
Proof.
  intros H I. cbn [kt_read]. rewrite split_last_app by (apply ident_no; [reflexivity|exact I]).
  now rewrite H, I.
Qed.
Lemma kt_float32 s q : read_dec fractional s = Some q -> number_ok kt_frac s = true ->
  kt_read TF32 (s ++ S_ "f") = Some (VFloat q).
Proof.
  intros H K. cbn [kt_read]. rewrite strip_end_app, (read_dec_other _ _ _ _ H K). reflexivity.
Qed.
Lemma kt_float64 s q : read_dec fractional s = Some q -> number_ok kt_frac s = true ->
  kt_read TF64 s = Some (VFloat q).
Proof. intros H K. cbn [kt_read]. rewrite (read_dec_other _ _ _ _ H K). reflexivity. Qed.
Lemma kt_literal_ok N t l v : names_ok N -> means N t l v -> written_lit l = true ->
  all_lit kt_plain l = true ->
  exists s, kt_default N t (DLit l) = Some s /\ kt_read t s = Some v.
Proof.
  intros [NC NV] M. induction M; intros W P;
    try (pose proof (all_lit_head _ _ P) as PH; cbn [kt_plain] in PH).
  - eexists; split; reflexivity.
  - destruct IHM as (s & D & R); [exact W|now apply all_lit_some in P|].
    exists s. split; [exact D|]. now apply kt_option.
  - discriminate W.
  - apply IHM; assumption.
  - apply uint_radix in W.
    destruct (kt_read_int t z r H (nonneg_radix _ r W) ltac:(lia)) as (s & A & B).
    exists s. split; [|exact B]. destruct t; try discriminate H; exact A.
  - apply radix_ok in W. apply Z.ltb_lt in PH.
    destruct (kt_read_int t z r H W PH) as (s & A & B).
    exists s. split; [|exact B]. destruct t; try discriminate H; exact A.
  - eexists; split; [reflexivity|]. now apply kt_float32.
  - eexists; split; [reflexivity|]. now apply kt_float64.
  - destruct b; eexists; split; reflexivity.
  - eexists; split; [reflexivity|]. cbn [kt_read]. unfold quoted.
    change (x22 :: s ++ [x22]) with ([x22] ++ (s ++ [x22])).
    rewrite strip_app, kt_str_plain by exact PH. reflexivity.
  - eexists; split; reflexivity.
  - eexists; split; reflexivity.
  - eexists; split; reflexivity.
  - discriminate W.
  - eexists; split; [reflexivity|]. apply kt_enum; [apply NC|apply NV].
Qed.
Lemma kotlin_reads N t d v : names_ok N -> written d = true -> lits kt_plain d = true ->
  meaning N t d = Some v -> exists s, kt_default N t d = Some s /\ kt_read t s = Some v.
Proof.
  intros G W P H. destruct d as [|l].
  - now apply kt_natural_ok.
  - apply meaning_means in H. eapply kt_literal_ok; eassumption.
Qed.

(** * Kotlin over JNI *)

Lemma jni_natural_ok N t v : names_ok N -> bare_set t = false -> meaning N t DDefault = Some v ->
  exists s, jni_natural N t = Some s /\ kt_read t s = Some v.
Proof.
  intros [NC NV]. induction t; cbn [meaning jni_natural bare_set]; intros B H; try discriminate;
    try (injection H as <-; eexists; split; [reflexivity|]; vm_compute; reflexivity).
  - injection H as <-. eexists; split; [reflexivity|]. cbn [kt_read].
    now rewrite strip_end_app, NC.
  - injection H as <-. eexists; split; [reflexivity|]. cbn [kt_read].
    now rewrite strip_end_app, NC.
  - auto.
Qed.
Lemma kt_uint_show m z : 0 <= z <= m -> kt_uint m (show_dec z) = Some z.
Proof.
  intros H. unfold show_dec. rewrite (proj2 (Z.ltb_ge _ _)) by lia. now apply kt_uint_dec.
Qed.
Lemma jni_small t c z : (exists p, c = p) -> in_range t z = true -> 0 <= z < 2 ^ 31 ->
  kt_small t c (show_dec z ++ c) = Some (VInt z).
Proof.
  intros _ R B. unfold kt_small. rewrite strip_end_app, kt_uint_show by lia. cbn [fits].
  now rewrite R.
Qed.
Lemma jni_read_int t z : in_range t z = true -> - 2 ^ 63 < z ->
  (t = TI8 \/ t = TI16 -> 0 <= z) ->
  exists s, jni_number t (show_dec z) = Some s /\ kt_read t s = Some (VInt z).
Proof.
  intros R M K. pose proof (in_range_64 _ _ R) as B.
  assert (t = TI32 \/ t = TU32 \/ t = TI64 \/ t = TU64 \/
          (exists c, jni_number t (show_dec z) = Some (show_dec z ++ c) /\
             kt_read t (show_dec z ++ c) =
               or_else (kt_small t c (show_dec z ++ c)) (kt_read t (show_dec z ++ c)) /\
             0 <= z < 2 ^ 31)) as C.
  { destruct t; try discriminate R; try tauto; do 4 right;
      unfold in_range in R; cbn [range_of] in R;
      (eexists; split; [reflexivity|]; split;
        [cbn [kt_read]; destruct (kt_small _ _ _); reflexivity|]).
    all: assert (0 <= z) by (try (apply K; tauto); lia); lia. }
  destruct C as [-> | [-> | [-> | [-> | (c & A & E & L)]]]].
  - destruct (kt_read_int TI32 z Decimal_ R I M) as (s & X & Y). eauto.
  - destruct (kt_read_int TU32 z Decimal_ R I M) as (s & X & Y). eauto.
  - destruct (kt_read_int TI64 z Decimal_ R I M) as (s & X & Y). eauto.
  - destruct (kt_read_int TU64 z Decimal_ R I M) as (s & X & Y). eauto.
  - exists (show_dec z ++ c). split; [exact A|]. rewrite E, jni_small by eauto. reflexivity.
Qed.
Lemma jni_literal_ok N t0 t l v : names_ok N -> means N t l v -> written_lit l = true ->
  all_lit jni_plain l = true -> set_as_list t (DLit l) = false ->
  exists s, jni_literal N t0 l = Some s /\ kt_read t s = Some v.
Proof.
  intros [NC NV] M. induction M; intros W P SL;
    try (pose proof (all_lit_head _ _ P) as PH; cbn [jni_plain] in PH).
  - eexists; split; reflexivity.
  - destruct IHM as (s & D & R); [exact W|now apply all_lit_some in P|exact SL|].
    exists s. split; [exact D|]. now apply kt_option.
  - discriminate W.
  - apply IHM; assumption.
  - apply uint_radix in W. destruct (jni_read_int t z H ltac:(lia) ltac:(auto)) as (s & A & B).
    eauto.
  - assert (- 2 ^ 63 < z /\ (t = TI8 \/ t = TI16 -> 0 <= z)) as [L K].
    { destruct t; try discriminate H; split; try lia; intros [X|X]; try discriminate X; lia. }
    destruct (jni_read_int t z H L K) as (s & A & B). eauto.
  - apply andb_prop in PH. destruct PH as [PH PD]. cbn [jni_literal]. rewrite PD.
    eexists; split; [reflexivity|]. now apply kt_float32.
  - apply andb_prop in PH. destruct PH as [PH PD]. cbn [jni_literal]. rewrite PD.
    eexists; split; [reflexivity|]. now apply kt_float64.
  - destruct b; eexists; split; reflexivity.
  - eexists; split; [reflexivity|]. cbn [kt_read]. unfold quoted.
    change (x22 :: escape_quotes s ++ [x22]) with ([x22] ++ (escape_quotes s ++ [x22])).
    rewrite strip_app, jni_str_plain by exact PH. reflexivity.
  - eexists; split; reflexivity.
  - eexists; split; reflexivity.
  - discriminate SL.
  - discriminate W.
  - eexists; split; [reflexivity|]. apply kt_enum; [apply NC|apply NV].
Qed.
Lemma jni_reads N t d v : names_ok N -> written d = true -> lits jni_plain d = true ->
  set_as_list t d = false -> (d = DDefault -> bare_set t = false) -> meaning N t d = Some v ->
  exists s, jni_default N t d = Some s /\ kt_read t s = Some v.
Proof.
  intros G W P SL B H. destruct d as [|l]; cbn [jni_default].
  - apply jni_natural_ok; auto.
  - apply meaning_means in H. eapply jni_literal_ok; eassumption.
Qed.
