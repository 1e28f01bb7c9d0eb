(** The bindings' languages read the defaults written for them as the values meant. *)
From Coq Require Import QArith.QArith_base QArith.Qreduction.
From Verif Require Import Base Meta_Types Sort_Model Jni_Model Jni_Spec Jni_Layout_Proofs
  Lit_Spec Lit_Model Lit_Text_Proofs.
Local Open Scope list_scope.
Local Open Scope Z_scope.

(** * Strings *)

Lemma free_cons bad c s : free_of bad (c :: s) = true ->
  existsb (byte_eqb c) bad = false /\ free_of bad s = true.
Proof.
  unfold free_of. cbn [forallb]. intros H. apply andb_prop in H. destruct H as [A B].
  split; [now destruct (existsb (byte_eqb c) bad)|exact B].
Qed.
Ltac bytes_off A :=
  cbn [existsb] in A;
  repeat match type of A with
         | (_ || _) = false => let B := fresh "B" in apply orb_false_elim in A; destruct A as [B A];
                               rewrite ?B in *
         end; clear A.
Lemma py_str_plain s : free_of [x22; x5c; x0a; x0d; x00] s = true -> py_str (s ++ [x22]) = Some s.
Proof.
  induction s as [|c s IH]; intros H; [reflexivity|]. apply free_cons in H. destruct H as [A B].
  specialize (IH B). cbn [app py_str existsb]. bytes_off A. cbn [orb]. rewrite ?IH. reflexivity.
Qed.
Lemma kt_str_plain s : free_of [x22; x5c; x0a; x0d; x24] s = true -> kt_str (s ++ [x22]) = Some s.
Proof.
  induction s as [|c s IH]; intros H; [reflexivity|]. apply free_cons in H. destruct H as [A B].
  specialize (IH B). cbn [app kt_str existsb]. bytes_off A. cbn [orb]. rewrite ?IH. reflexivity.
Qed.
Lemma jni_str_plain s : free_of [x5c; x0a; x0d; x24] s = true ->
  kt_str (escape_quotes s ++ [x22]) = Some s.
Proof.
  induction s as [|c s IH]; intros H; [reflexivity|]. apply free_cons in H. destruct H as [A B].
  specialize (IH B). unfold escape_quotes in *. cbn [flat_map]. rewrite <- app_assoc.
  destruct (byte_eqb_spec c x22) as [->|N].
  - cbn [app kt_str existsb]. change (byte_eqb x5c x22) with false. change (byte_eqb x5c x0a) with false.
    change (byte_eqb x5c x0d) with false. change (byte_eqb x5c x24) with false.
    change (byte_eqb x5c x5c) with true. change (kt_escape x22) with (Some x22).
    cbn [orb]. rewrite IH. reflexivity.
  - assert (byte_eqb c x22 = false) as E by (destruct (byte_eqb_spec c x22); congruence).
    cbn [app kt_str existsb]. rewrite E. bytes_off A. cbn [orb]. rewrite IH. reflexivity.
Qed.
Lemma sw_str_plain s : free_of [x22; x5c; x0a; x0d] s = true -> sw_str (s ++ [x22]) = Some s.
Proof.
  induction s as [|c s IH]; intros H; [reflexivity|]. apply free_cons in H. destruct H as [A B].
  specialize (IH B). cbn [app sw_str existsb]. bytes_off A. cbn [orb]. rewrite ?IH. reflexivity.
Qed.
Lemma rb_str_plain s : free_of [x22; x5c; x23] s = true -> rb_str (s ++ [x22]) = Some s.
Proof.
  induction s as [|c s IH]; intros H; [reflexivity|]. apply free_cons in H. destruct H as [A B].
  specialize (IH B). cbn [app rb_str existsb]. bytes_off A. cbn [orb]. rewrite ?IH. reflexivity.
Qed.

(** * Integers *)

Definition ok_radix (z : Z) (r : radix) : Prop :=
  match r with Decimal_ => True | _ => 0 <= z end.

Lemma in_range_64 t z : in_range t z = true -> - 2 ^ 63 <= z < 2 ^ 64.
Proof.
  unfold in_range. destruct t; cbn [range_of]; intros H; try discriminate;
    apply andb_prop in H; destruct H as [A B]; apply Z.leb_le in A; apply Z.leb_le in B; lia.
Qed.
Lemma py_uint_text z r : - 2 ^ 63 <= z < 2 ^ 64 -> ok_radix z r -> py_int (uint_text z r) = Some z.
Proof.
  intros B R. unfold py_int. destruct r; cbn [uint_text ok_radix] in *.
  - apply signed_dec. intros n H _. now apply py_uint_dec.
  - rewrite show_oct_small by lia. change (S_ "0o") with [x30; x6f]; change (S_ "0x") with [x30; x78]; cbn [app]. rewrite signed_other by discriminate.
    unfold py_uint. change (strip [x30; x78] _) with (@None bytes). cbn iota.
    change (x30 :: x6f :: fmt 8 z) with (S_ "0o" ++ fmt 8 z). rewrite strip_app.
    apply number_fmt; lia.
  - rewrite show_hex_small by lia. change (S_ "0o") with [x30; x6f]; change (S_ "0x") with [x30; x78]; cbn [app]. rewrite signed_other by discriminate.
    change (x30 :: x78 :: fmt 16 z) with (S_ "0x" ++ fmt 16 z). unfold py_uint.
    rewrite strip_app. apply number_fmt; lia.
Qed.
Lemma sw_int_text z r : - 2 ^ 63 <= z < 2 ^ 64 -> ok_radix z r -> sw_int (uint_text z r) = Some z.
Proof.
  intros B R. unfold sw_int. destruct r; cbn [uint_text ok_radix] in *.
  - apply signed_dec. intros n H _. now apply sw_uint_dec.
  - rewrite show_oct_small by lia. change (S_ "0o") with [x30; x6f]; change (S_ "0x") with [x30; x78]; cbn [app]. rewrite signed_other by discriminate.
    unfold sw_uint. change (strip (S_ "0x") _) with (@None bytes). cbn iota.
    change (x30 :: x6f :: fmt 8 z) with (S_ "0o" ++ fmt 8 z). rewrite strip_app.
    apply number_fmt; lia.
  - rewrite show_hex_small by lia. change (S_ "0o") with [x30; x6f]; change (S_ "0x") with [x30; x78]; cbn [app]. rewrite signed_other by discriminate.
    change (x30 :: x78 :: fmt 16 z) with (S_ "0x" ++ fmt 16 z). unfold sw_uint.
    rewrite strip_app. apply number_fmt; lia.
Qed.
Lemma kt_signed_text z r : - 2 ^ 63 < z < 2 ^ 63 -> ok_radix z r ->
  kt_signed (kt_int_text z r) = Some z.
Proof.
  intros B R. unfold kt_signed.
  assert (forall z, 0 <= z < 2 ^ 63 -> signed (kt_uint (2 ^ 63 - 1)) (show_hex z) = Some z) as X.
  { intros y H. rewrite show_hex_small by lia. change (S_ "0o") with [x30; x6f]; change (S_ "0x") with [x30; x78]; cbn [app]. rewrite signed_other by discriminate.
    change (x30 :: x78 :: fmt 16 y) with (S_ "0x" ++ fmt 16 y).
    rewrite <- show_hex_small by lia. apply kt_uint_hex; lia. }
  destruct r; cbn [kt_int_text ok_radix] in *; [|apply X; lia|apply X; lia].
  apply signed_dec. intros n H L. apply kt_uint_dec. lia.
Qed.
Lemma kt_unsigned_text z r : 0 <= z < 2 ^ 64 -> kt_uint (2 ^ 64 - 1) (kt_int_text z r) = Some z.
Proof.
  intros B. destruct r; cbn [kt_int_text]; [|apply kt_uint_hex; lia|apply kt_uint_hex; lia].
  unfold show_dec. rewrite (proj2 (Z.ltb_ge _ _)) by lia. apply kt_uint_dec. lia.
Qed.

(** The first byte of a number. *)
Lemma numeric_dec z : exists c r, show_dec z = c :: r /\ numeric_start c = true /\ c <> x22.
Proof.
  unfold show_dec. destruct (z <? 0) eqn:E.
  - exists x2d, (fmt 10 (- z)). repeat split. discriminate.
  - destruct (fmt_cons 10 z ltac:(lia) ltac:(lia)) as (d & r & Q & D & _).
    exists (digit_byte d), r. split; [exact Q|]. unfold numeric_start.
    rewrite digit_byte_dec by lia. split; [reflexivity|]. intros X.
    pose proof (digit_byte_dec d ltac:(lia)) as Y. rewrite X in Y. vm_compute in Y. discriminate.
Qed.
Lemma numeric_uint z r : exists c k, uint_text z r = c :: k /\ numeric_start c = true /\ c <> x22.
Proof.
  destruct r; cbn [uint_text].
  - apply numeric_dec.
  - exists x30, (x6f :: show_oct z). repeat split. discriminate.
  - unfold show_hex. eexists x30, _. repeat split. discriminate.
Qed.
Lemma eval_numeric c r : numeric_start c = true -> c <> x22 -> py_eval (c :: r) = py_number (c :: r).
Proof.
  intros E N. unfold py_eval. rewrite E. destruct c; try reflexivity. congruence.
Qed.
Lemma rb_eval_numeric c r : numeric_start c = true -> c <> x22 ->
  rb_eval (c :: r) = rb_number (c :: r).
Proof.
  intros E N. unfold rb_eval. rewrite E.
  assert (is_ (c :: r) (S_ """"".b") = false) as ->.
  { apply is_neq. change (S_ """"".b") with [x22; x22; x2e; x62]. intros [= X _]. congruence. }
  destruct c; try reflexivity. congruence.
Qed.
Lemma py_eval_int z r : - 2 ^ 63 <= z < 2 ^ 64 -> ok_radix z r ->
  py_eval (uint_text z r) = Some (VInt z).
Proof.
  intros B R. pose proof (py_uint_text z r B R) as P.
  destruct (numeric_uint z r) as (c & k & Q & E & N). rewrite Q in *.
  rewrite eval_numeric by assumption. unfold py_number. now rewrite P.
Qed.
Lemma rb_eval_int z r : - 2 ^ 63 <= z < 2 ^ 64 -> ok_radix z r ->
  rb_eval (uint_text z r) = Some (VInt z).
Proof.
  intros B R. pose proof (py_uint_text z r B R) as P.
  destruct (numeric_uint z r) as (c & k & Q & E & N). rewrite Q in *.
  rewrite rb_eval_numeric by assumption. unfold rb_number. now rewrite P.
Qed.
(** Signed octal numbers are wrapped in a call in Python. *)
Lemma py_eval_sint z r : - 2 ^ 63 <= z < 2 ^ 64 -> ok_radix z r ->
  py_eval (py_int_text z r) = Some (VInt z).
Proof.
  intros B R. destruct r.
  - exact (py_eval_int z Decimal_ B R).
  - cbn [ok_radix] in R. cbn [py_int_text]. rewrite show_oct_small by lia.
    pose proof (py_uint_text z Octal_ B R) as P. cbn [uint_text] in P.
    rewrite show_oct_small in P by lia.
    assert (In x28 (S_ "int(0o" ++ fmt 8 z ++ S_ ")")) as I by (cbn [S_]; cbn; tauto).
    assert (~ In x28 (fmt 8 z)) as NI by (apply fmt_not_in; [lia|reflexivity]).
    assert (~ In x29 (fmt 8 z)) as NI' by (apply fmt_not_in; [lia|reflexivity]).
    change (py_eval (S_ "int(0o" ++ fmt 8 z ++ S_ ")")) with
      (py_words (S_ "int(0o" ++ fmt 8 z ++ S_ ")")).
    unfold py_words.
    rewrite !(is_not x28 _ _ I) by reflexivity.
    assert (is_ (S_ "int(0o" ++ fmt 8 z ++ S_ ")") (S_ "{*()}") = false) as ->.
    { apply is_neq. intros X. apply (f_equal (@rev byte)) in X. cbn [S_] in X.
      rewrite !rev_app_distr in X. cbn in X. discriminate. }
    assert (strip_end (S_ "()") (S_ "int(0o" ++ fmt 8 z ++ S_ ")") = None) as ->.
    { destruct (strip_end _ _) as [k|] eqn:E; [|reflexivity]. apply strip_end_some in E.
      change (S_ "()") with ([x28] ++ [x29]) in E. change (S_ ")") with [x29] in E.
      rewrite !app_assoc in E. apply app_inj_tail in E. destruct E as [E _].
      destruct (fmt_cons 8 z ltac:(lia) R) as (d & q & Q & _).
      assert (fmt 8 z <> []) as NE by (rewrite Q; discriminate).
      destruct (exists_last NE) as (q' & c & Q'). rewrite Q' in E, NI.
      rewrite app_assoc in E. apply app_inj_tail in E. destruct E as [_ ->].
      exfalso. apply NI. apply in_app_iff. cbn. tauto. }
    change (S_ "int(0o" ++ fmt 8 z ++ S_ ")") with
      (S_ "int(" ++ ((S_ "0o" ++ fmt 8 z) ++ S_ ")")). rewrite strip_app, strip_end_app.
    rewrite P. reflexivity.
  - exact (py_eval_int z Hexadecimal_ B R).
Qed.

(** * Fractions *)

Lemma digits_span s : forallb is_digit s = true -> span_digits s = (s, []).
Proof.
  induction s as [|c s IH]; cbn; [reflexivity|]. intros H. apply andb_prop in H.
  destruct H as [-> B]. now rewrite IH.
Qed.
Lemma number_digits s : forall acc z, number_ 10 acc s = Some z -> forallb is_digit s = true.
Proof.
  induction s as [|c s IH]; intros acc z H; [reflexivity|]. cbn [number_ forallb] in *.
  destruct (digit_of c) as [d|] eqn:D; [|discriminate].
  destruct (d <? 10) eqn:L; [|discriminate]. rewrite (IH _ _ H), andb_true_r.
  clear - D L. unfold digit_of, is_digit in *. destruct c; vm_compute in D; try discriminate;
    injection D as <-; vm_compute in L; try discriminate; reflexivity.
Qed.
(** A whole number is not a fraction. *)
Lemma uint_not_frac s z neg : py_uint s = Some z ->
  match unsigned_decimal neg s with Some d => fractional d = false | None => True end.
Proof.
  unfold py_uint, unsigned_decimal. intros H.
  destruct (strip (S_ "0x") s) as [r|] eqn:E.
  { apply strip_some in E. subst s. exact I. }
  destruct (strip (S_ "0o") s) as [r|] eqn:E'.
  { apply strip_some in E'. subst s. exact I. }
  destruct (no_leading_zero s); [|discriminate].
  assert (forallb is_digit s = true) as D.
  { destruct s as [|c s]; [reflexivity|]. exact (number_digits _ _ _ H). }
  rewrite digits_span by exact D. change (strip (S_ ".") []) with (@None bytes).
  cbn [exponent]. unfold fractional. cbn. apply andb_false_r.
Qed.
Lemma int_not_frac s z : py_int s = Some z -> number_ok fractional s = false.
Proof.
  intros H. unfold number_ok, decimal. unfold py_int, signed in H.
  destruct (strip (S_ "-") s) as [r|].
  - destruct (py_uint r) as [y|] eqn:P; [|discriminate].
    pose proof (uint_not_frac r y true P) as U.
    destruct (unsigned_decimal true r); [exact U|reflexivity].
  - pose proof (uint_not_frac s z false H) as U.
    destruct (unsigned_decimal false s); [exact U|reflexivity].
Qed.
Lemma number_ok_start s : number_ok fractional s = true ->
  exists c r, s = c :: r /\ numeric_start c = true /\ c <> x22.
Proof.
  unfold number_ok, decimal. destruct s as [|c r]; [vm_compute; discriminate|]. intros H.
  exists c, r. split; [reflexivity|].
  destruct (numeric_start c) eqn:E.
  - split; [reflexivity|]. intros ->. vm_compute in E. discriminate.
  - exfalso. unfold numeric_start in E. apply orb_false_elim in E. destruct E as [E E3].
    apply orb_false_elim in E. destruct E as [E1 E2].
    change (S_ "-") with [x2d] in H.
    rewrite strip_one_other in H by (intros <-; vm_compute in E2; discriminate).
    unfold unsigned_decimal in H. cbn [span_digits] in H. rewrite E1 in H.
    change (S_ ".") with [x2e] in H.
    rewrite strip_one_other in H by (intros <-; vm_compute in E3; discriminate).
    destruct (exponent (c :: r)) as [e|]; [|discriminate]. discriminate H.
Qed.
Lemma read_dec_ok ok s q : read_dec ok s = Some q -> number_ok ok s = true.
Proof.
  unfold read_dec, number_ok. destruct (decimal s) as [d|]; [|discriminate].
  now destruct (ok d).
Qed.
Lemma read_dec_other ok ok' s q : read_dec ok s = Some q -> number_ok ok' s = true ->
  read_dec ok' s = Some q.
Proof.
  unfold read_dec, number_ok. destruct (decimal s) as [d|]; [|discriminate].
  destruct (ok d); [|discriminate]. now intros [= <-] ->.
Qed.
Lemma py_eval_float s q : read_dec fractional s = Some q -> py_eval s = Some (VFloat q).
Proof.
  intros H. pose proof (read_dec_ok _ _ _ H) as O.
  destruct (number_ok_start s O) as (c & r & -> & E & N).
  rewrite eval_numeric by assumption. unfold py_number.
  destruct (py_int (c :: r)) as [z|] eqn:P.
  - apply int_not_frac in P. congruence.
  - unfold py_float. now rewrite H.
Qed.
Lemma rb_eval_float s q : read_dec fractional s = Some q -> number_ok rb_frac s = true ->
  rb_eval s = Some (VFloat q).
Proof.
  intros H R. pose proof (read_dec_ok _ _ _ H) as O.
  destruct (number_ok_start s O) as (c & r & -> & E & N).
  rewrite rb_eval_numeric by assumption. unfold rb_number.
  destruct (py_int (c :: r)) as [z|] eqn:P.
  - apply int_not_frac in P. congruence.
  - now rewrite (read_dec_other _ _ _ _ H R).
Qed.

(** * Names *)

Lemma path_start n : path n = true -> exists c r, n = c :: r /\ numeric_start c = false /\ c <> x22.
Proof.
  destruct n as [|c r]; [discriminate|]. unfold path. cbn [forallb]. intros H.
  apply andb_prop in H. destruct H as [H D]. apply andb_prop in H. destruct H as [H E].
  apply andb_prop in H. destruct H as [H _]. exists c, r. split; [reflexivity|].
  unfold numeric_start. destruct (is_digit c); [discriminate|].
  destruct (byte_eqb_spec c x2e) as [->|N]; [discriminate|]. cbn [orb].
  assert (byte_eqb c x2d = false) as ->.
  { destruct (byte_eqb_spec c x2d) as [->|]; [vm_compute in H; discriminate|reflexivity]. }
  split; [reflexivity|]. intros ->. vm_compute in H. discriminate.
Qed.
Lemma path_bytes n : path n = true -> Forall (fun c => ident_byte c || byte_eqb c x2e = true) n.
Proof.
  destruct n as [|c r]; [discriminate|]. unfold path. intros H.
  apply andb_prop in H. destruct H as [H _]. apply andb_prop in H. destruct H as [H _].
  now apply Forall_forall, forallb_forall.
Qed.
Lemma ident_bytes n : ident n = true -> Forall (fun c => ident_byte c = true) n.
Proof.
  destruct n as [|c r]; [discriminate|]. unfold ident. intros H.
  apply andb_prop in H. destruct H as [H _]. now apply Forall_forall, forallb_forall.
Qed.
Lemma ident_no c n : ident_byte c = false -> ident n = true -> ~ In c n.
Proof.
  intros E H I. apply ident_bytes in H. rewrite Forall_forall in H. rewrite (H c I) in E. discriminate.
Qed.
Lemma path_no c n : ident_byte c || byte_eqb c x2e = false -> path n = true -> ~ In c n.
Proof.
  intros E H I. apply path_bytes in H. rewrite Forall_forall in H. rewrite (H c I) in E. discriminate.
Qed.
Lemma split_last_none s : ~ In x2e s -> split_last s = None.
Proof.
  induction s as [|c s IH]; cbn; [reflexivity|]. intros H. rewrite IH by tauto.
  destruct (byte_eqb_spec c x2e); [subst; tauto|reflexivity].
Qed.
Lemma split_last_app a b : ~ In x2e b -> split_last (a ++ S_ "." ++ b) = Some (a, b).
Proof.
  intros H. induction a as [|c a IH]; cbn [app].
  - change (S_ ".") with [x2e]. cbn [app split_last]. rewrite split_last_none by exact H. reflexivity.
  - cbn [split_last]. rewrite IH. reflexivity.
Qed.
Lemma split_colons_app a b : ~ In x3a a -> split_colons (a ++ S_ "::" ++ b) = Some (a, b).
Proof.
  intros H. induction a as [|c a IH]; cbn [app].
  - change (S_ "::") with [x3a; x3a]. reflexivity.
  - cbn [split_colons]. change (S_ "::") with [x3a; x3a] in *. cbn [strip].
    destruct (byte_eqb_spec x3a c) as [<- | N]; [cbn in H; tauto|].
    rewrite IH by (cbn in H; tauto). reflexivity.
Qed.
Lemma split_colons_none s : ~ In x3a s -> split_colons s = None.
Proof.
  intros H. induction s as [|c s IH]; [reflexivity|].
  cbn [split_colons]. change (S_ "::") with [x3a; x3a]. cbn [strip].
  destruct (byte_eqb_spec x3a c) as [<- | N]; [cbn in H; tauto|].
  rewrite IH by (cbn in H; tauto). reflexivity.
Qed.

Lemma py_eval_word c r : numeric_start c = false -> c <> x22 -> py_eval (c :: r) = py_words (c :: r).
Proof. intros E N. unfold py_eval. rewrite strip_one_other by congruence. now rewrite E. Qed.
Lemma rb_eval_word c r : numeric_start c = false -> c <> x22 -> rb_eval (c :: r) = rb_words (c :: r).
Proof.
  intros E N. unfold rb_eval.
  assert (is_ (c :: r) (S_ """"".b") = false) as ->.
  { apply is_neq. change (S_ """"".b") with [x22; x22; x2e; x62]. intros [= X _]. congruence. }
  rewrite strip_one_other by congruence. now rewrite E.
Qed.
Lemma tail_not a p w : strip_end p w = None -> is_ (a ++ p) w = false.
Proof. intros E. apply is_neq. intros <-. rewrite strip_end_app in E. discriminate. Qed.
Lemma py_eval_new n : path n = true -> py_eval (n ++ S_ "()") = Some (VNew n).
Proof.
  intros H. assert (py_eval (n ++ S_ "()") = py_words (n ++ S_ "()")) as ->.
  { destruct (path_start n H) as (c & r & -> & E & N). now apply py_eval_word. }
  unfold py_words. rewrite !tail_not by reflexivity. rewrite strip_end_app, H. reflexivity.
Qed.
Lemma py_eval_enum n v : path n = true -> ident v = true ->
  py_eval (n ++ S_ "." ++ v) = Some (VEnum n v).
Proof.
  intros H I. assert (py_eval (n ++ S_ "." ++ v) = py_words (n ++ S_ "." ++ v)) as ->.
  { destruct (path_start n H) as (c & r & -> & E & N). now apply py_eval_word. }
  assert (In x2e (n ++ S_ "." ++ v)) as IN.
  { rewrite !in_app_iff. right. left. now left. }
  assert (forall c, ident_byte c || byte_eqb c x2e = false -> ~ In c (n ++ S_ "." ++ v)) as NI.
  { intros c E. rewrite !in_app_iff. intros [X|[X|X]].
    - exact (path_no c n E H X).
    - change (S_ ".") with [x2e] in X. destruct X as [<- | []]. discriminate.
    - apply orb_false_elim in E. exact (ident_no c v (proj1 E) I X). }
  unfold py_words. rewrite !(is_not x2e _ _ IN) by reflexivity.
  change (S_ "()") with ([x28] ++ [x29]). rewrite strip_end_none by (apply NI; reflexivity).
  rewrite (strip_none x28 (S_ "int(")); [|cbn; tauto|apply NI; reflexivity].
  rewrite split_last_app by (apply ident_no; [reflexivity|exact I]). now rewrite H, I.
Qed.
Lemma rb_eval_new n : path n = true -> n <> S_ "Set" -> rb_eval (n ++ S_ ".new") = Some (VNew n).
Proof.
  intros H D. assert (rb_eval (n ++ S_ ".new") = rb_words (n ++ S_ ".new")) as ->.
  { destruct (path_start n H) as (c & r & -> & E & N). now apply rb_eval_word. }
  unfold rb_words.
  assert (is_ (n ++ S_ ".new") (S_ "Set.new") = false) as X.
  { apply is_neq. change (S_ "Set.new") with (S_ "Set" ++ S_ ".new"). intros X.
    apply app_inv_tail in X. contradiction. }
  rewrite X, !tail_not by reflexivity.
  rewrite split_colons_none.
  - rewrite strip_end_app, H. reflexivity.
  - rewrite in_app_iff. intros [Y|Y].
    + exact (path_no x3a n eq_refl H Y).
    + cbn in Y. intuition discriminate.
Qed.
Lemma rb_eval_enum n v : path n = true -> ident v = true ->
  rb_eval (n ++ S_ "::" ++ v) = Some (VEnum n v).
Proof.
  intros H I. assert (rb_eval (n ++ S_ "::" ++ v) = rb_words (n ++ S_ "::" ++ v)) as ->.
  { destruct (path_start n H) as (c & r & -> & E & N). now apply rb_eval_word. }
  assert (In x3a (n ++ S_ "::" ++ v)) as IN.
  { rewrite !in_app_iff. right. left. now left. }
  unfold rb_words. rewrite !(is_not x3a _ _ IN) by reflexivity.
  rewrite split_colons_app by (apply path_no; [reflexivity|exact H]). now rewrite H, I.
Qed.

(** * Python *)

Lemma py_eval_str s : free_of [x22; x5c; x0a; x0d; x00] s = true ->
  py_eval (quoted s) = Some (VStr s).
Proof.
  intros H. unfold quoted, py_eval. change (x22 :: s ++ [x22]) with ([x22] ++ (s ++ [x22])).
  rewrite strip_app, py_str_plain by exact H. reflexivity.
Qed.
Lemma radix_ok z r t : written_lit (LInt z r t) = true -> ok_radix z r.
Proof. destruct r; cbn; try lia; exact (fun _ => I). Qed.

Lemma py_natural_ok N t v : names_ok N -> meaning N t DDefault = Some v ->
  exists s, py_natural N t = Some s /\ py_eval s = Some v.
Proof.
  intros [NC NV]. induction t; cbn [meaning py_natural]; intros H; try discriminate;
    try (injection H as <-; eexists; split; [reflexivity|]; vm_compute; reflexivity).
  - injection H as <-. eexists; split; [reflexivity|]. now apply py_eval_new.
  - injection H as <-. eexists; split; [reflexivity|]. now apply py_eval_new.
  - auto.
Qed.

(** The cases of a literal's meaning. *)
Inductive means (N : names) : ty -> literal -> value -> Prop :=
| M_none u : means N (TOption u) LNone VNone
| M_some u l v : means N u l v -> means N (TOption u) (LSome (DLit l)) v
| M_natural u v : meaning N u DDefault = Some v -> means N (TOption u) (LSome DDefault) v
| M_custom mp n b l v : means N b l v -> means N (TCustom mp n b) l v
| M_uint t z r : in_range t z = true -> means N t (LUInt z r t) (VInt z)
| M_int t z r : in_range t z = true -> means N t (LInt z r t) (VInt z)
| M_f32 s q : read_dec fractional s = Some q -> means N TF32 (LFloat s TF32) (VFloat q)
| M_f64 s q : read_dec fractional s = Some q -> means N TF64 (LFloat s TF64) (VFloat q)
| M_bool b : means N TBool (LBool b) (VBool b)
| M_str s : means N TString (LString s) (VStr s)
| M_seq u : means N (TSeq u) LEmptySeq VList
| M_map k w : means N (TMap k w) LEmptyMap VMap
| M_set_list u : means N (TSet u) LEmptySeq VSet
| M_set u : means N (TSet u) LEmptySet VSet
| M_enum mp n v : means N (TEnum mp n) (LEnum v (TEnum mp n)) (VEnum (n_class N mp n) (n_variant N v)).

Lemma meaning_means N t : forall l v, meaning N t (DLit l) = Some v -> means N t l v.
Proof.
  induction t; intros l v H; cbn [meaning] in H; try discriminate H;
    try (destruct l as [b|s|z r t'|z r t'|s t'|s t'| | | | |d]; try discriminate H).
  all: repeat match type of H with
    | (if ?x then _ else _) = Some _ => destruct x eqn:?Q; [|discriminate H]
    | option_map VFloat ?x = Some _ => destruct x eqn:?F; [|discriminate H]; cbn [option_map] in H
    end.
  all: repeat match goal with
    | Q : _ && _ = true |- _ => apply andb_prop in Q; destruct Q
    | Q : ty_eqb _ _ = true |- _ => apply ty_eqb_eq in Q; subst
    end.
  all: try (injection H as <-); try (constructor; assumption); try (constructor; auto; fail).
  destruct d as [|l]; constructor; auto.
Qed.

Lemma uint_radix z r t : written_lit (LUInt z r t) = true -> 0 <= z.
Proof. cbn. lia. Qed.
Lemma nonneg_radix z r : 0 <= z -> ok_radix z r.
Proof. destruct r; cbn; auto. Qed.
Lemma all_lit_head P l : all_lit P l = true -> P l = true.
Proof. destruct l; cbn [all_lit]; intros H; apply andb_prop in H; tauto. Qed.
Lemma all_lit_some P l : all_lit P (LSome (DLit l)) = true -> all_lit P l = true.
Proof. cbn [all_lit]. intros H. apply andb_prop in H. tauto. Qed.

Lemma py_literal_ok N t0 t l v : names_ok N -> means N t l v -> written_lit l = true ->
  all_lit (py_plain N) l = true -> set_as_list t (DLit l) = false ->
  exists s, py_literal N t0 l = Some s /\ py_eval s = Some v.
Proof.
  intros [NC NV] M. induction M; intros W P SL;
    try (pose proof (all_lit_head _ _ P) as PH; cbn [py_plain] in PH).
  - eexists; split; reflexivity.
  - cbn [py_literal]. apply IHM; [exact W|now apply all_lit_some in P|exact SL].
  - discriminate W.
  - apply IHM; assumption.
  - apply in_range_64 in H. apply uint_radix in W. eexists; split; [reflexivity|].
    apply py_eval_int; [exact H|]. now apply nonneg_radix.
  - apply in_range_64 in H. apply radix_ok in W. eexists; split; [reflexivity|].
    now apply py_eval_sint.
  - eexists; split; [reflexivity|]. now apply py_eval_float.
  - eexists; split; [reflexivity|]. now apply py_eval_float.
  - destruct b; eexists; split; reflexivity.
  - eexists; split; [reflexivity|]. now apply py_eval_str.
  - eexists; split; reflexivity.
  - eexists; split; reflexivity.
  - discriminate SL.
  - discriminate W.
  - eexists; split; [reflexivity|]. apply bytes_eqb_true in PH. rewrite PH.
    apply py_eval_enum; [rewrite <- PH; apply NC|apply NV].
Qed.
Lemma python_reads N t d v : names_ok N -> written d = true -> lits (py_plain N) d = true ->
  set_as_list t d = false -> meaning N t d = Some v ->
  exists s, py_default N t d = Some s /\ py_eval s = Some v.
Proof.
  intros G W P SL H. destruct d as [|l]; cbn [py_default].
  - now apply py_natural_ok.
  - apply meaning_means in H. eapply py_literal_ok; eassumption.
Qed.

(** * Ruby *)

Lemma rb_eval_str s : free_of [x22; x5c; x23] s = true -> rb_eval (quoted s) = Some (VStr s).
Proof.
  intros H. unfold quoted, rb_eval.
  assert (is_ (x22 :: s ++ [x22]) (S_ """"".b") = false) as ->.
  { change (x22 :: s ++ [x22]) with ((x22 :: s) ++ [x22]). apply tail_not. reflexivity. }
  change (x22 :: s ++ [x22]) with ([x22] ++ (s ++ [x22])).
  rewrite strip_app, rb_str_plain by exact H. reflexivity.
Qed.
Lemma rb_natural_ok N t v : rb_names N -> meaning N t DDefault = Some v ->
  exists s, rb_natural N t = Some s /\ rb_eval s = Some v.
Proof.
  intros [[NC NV] NS]. induction t; cbn [meaning rb_natural]; intros H; try discriminate;
    try (injection H as <-; eexists; split; [reflexivity|]; vm_compute; reflexivity).
  - injection H as <-. eexists; split; [reflexivity|]. apply rb_eval_new; auto.
  - injection H as <-. eexists; split; [reflexivity|]. apply rb_eval_new; auto.
  - auto.
Qed.
Lemma rb_literal_ok N t l v : names_ok N -> means N t l v -> written_lit l = true ->
  all_lit rb_plain l = true -> set_as_list t (DLit l) = false ->
  exists s, rb_literal N l = Some s /\ rb_eval s = Some v.
Proof.
  intros [NC NV] M. induction M; intros W P SL;
    try (pose proof (all_lit_head _ _ P) as PH; cbn [rb_plain] in PH).
  - eexists; split; reflexivity.
  - cbn [rb_literal]. apply IHM; [exact W|now apply all_lit_some in P|exact SL].
  - discriminate W.
  - apply IHM; assumption.
  - apply in_range_64 in H. apply uint_radix in W. eexists; split; [reflexivity|].
    apply rb_eval_int; [exact H|]. now apply nonneg_radix.
  - apply in_range_64 in H. apply radix_ok in W. eexists; split; [reflexivity|].
    now apply rb_eval_int.
  - eexists; split; [reflexivity|]. now apply rb_eval_float.
  - eexists; split; [reflexivity|]. now apply rb_eval_float.
  - destruct b; eexists; split; reflexivity.
  - eexists; split; [reflexivity|]. now apply rb_eval_str.
  - eexists; split; reflexivity.
  - eexists; split; reflexivity.
  - discriminate SL.
  - discriminate W.
  - eexists; split; [reflexivity|]. apply rb_eval_enum; [apply NC|apply NV].
Qed.
Lemma ruby_reads N t d v : rb_names N -> written d = true -> lits rb_plain d = true ->
  set_as_list t d = false -> meaning N t d = Some v ->
  exists s, rb_default N t d = Some s /\ rb_eval s = Some v.
Proof.
  intros G W P SL H. destruct d as [|l]; cbn [rb_default].
  - now apply rb_natural_ok.
  - apply meaning_means in H. eapply rb_literal_ok; try eassumption. apply G.
Qed.

(** * Swift *)

Lemma made_app label s : made label (label ++ S_ "(" ++ s ++ S_ ")") = Some s.
Proof. unfold made. rewrite app_assoc, strip_app. apply strip_end_app. Qed.
Lemma sw_read_int E t z r : in_range t z = true -> ok_radix z r ->
  exists s, sw_number t (uint_text z r) = Some s /\ sw_read E t s = Some (VInt z).
Proof.
  intros R K. pose proof (in_range_64 _ _ R) as B. pose proof (sw_int_text z r B K) as X.
  destruct t; try discriminate R;
    (eexists; split; [reflexivity|]); cbn [sw_read sw_label]; unfold sw_sized;
    try (rewrite made_app, X; cbn [fits]; rewrite R; reflexivity).
  assert (made (S_ "Int32") (uint_text z r) = None) as ->.
  { unfold made. destruct (strip _ _) as [k|] eqn:Q; [|reflexivity]. apply strip_some in Q.
    destruct (numeric_uint z r) as (c & k' & Q' & NS & _). rewrite Q' in Q.
    cbn in Q. injection Q as Q _. subst c. vm_compute in NS. discriminate. }
  rewrite X. cbn [fits]. now rewrite R.
Qed.
Lemma sw_read_nil E t v : sw_read E t (S_ "nil") = Some v -> v = VNone.
Proof.
  induction t; cbn [sw_read]; intros H;
    try (match type of H with context [sw_read] => fail 1 | _ => idtac end;
         vm_compute in H; congruence); auto.
  change (is_ (S_ "nil") (S_ "nil")) with true in H. congruence.
Qed.
Lemma sw_option E t s v : sw_read E t s = Some v -> sw_read E (TOption t) s = Some v.
Proof.
  intros H. cbn [sw_read]. destruct (is_ s (S_ "nil")) eqn:Q; [|exact H].
  apply is_eq in Q. subst. apply sw_read_nil in H. now subst.
Qed.
Lemma sw_natural_ok N t v : names_ok N -> meaning N t DDefault = Some v ->
  exists s, sw_default N t DDefault = Some s /\ sw_read (n_class N) t s = Some v.
Proof.
  intros [NC NV]. induction t; cbn [meaning sw_default]; intros H; try discriminate;
    try (injection H as <-; eexists; split; [reflexivity|]; vm_compute; reflexivity).
  - injection H as <-. eexists; split; [reflexivity|]. cbn [sw_read].
    now rewrite strip_end_app, NC.
  - injection H as <-. eexists; split; [reflexivity|]. cbn [sw_read].
    now rewrite strip_end_app, NC.
  - auto.
Qed.
Lemma sw_literal_ok N t l v : names_ok N -> means N t l v -> written_lit l = true ->
  all_lit sw_plain l = true ->
  exists s, sw_default N t (DLit l) = Some s /\ sw_read (n_class N) t s = Some v.
Proof.
  intros [NC NV] M. induction M; intros W P;
    try (pose proof (all_lit_head _ _ P) as PH; cbn [sw_plain] in PH).
  - eexists; split; reflexivity.
  - destruct IHM as (s & D & R); [exact W|now apply all_lit_some in P|].
    exists s. split; [exact D|]. now apply sw_option.
  - discriminate W.
  - apply IHM; assumption.
  - apply uint_radix, (nonneg_radix _ r) in W.
    destruct (sw_read_int (n_class N) t z r H W) as (s & A & B).
    exists s. split; [|exact B]. destruct t; try discriminate H; exact A.
  - apply radix_ok in W.
    destruct (sw_read_int (n_class N) t z r H W) as (s & A & B).
    exists s. split; [|exact B]. destruct t; try discriminate H; exact A.
  - eexists; split; [reflexivity|]. cbn [sw_read sw_label]. unfold sw_float.
    rewrite made_app, (read_dec_other _ _ _ _ H PH). reflexivity.
  - eexists; split; [reflexivity|]. cbn [sw_read sw_label]. unfold sw_float.
    rewrite made_app, (read_dec_other _ _ _ _ H PH). reflexivity.
  - destruct b; eexists; split; reflexivity.
  - eexists; split; [reflexivity|]. cbn [sw_read]. unfold quoted.
    change (x22 :: s ++ [x22]) with ([x22] ++ (s ++ [x22])).
    rewrite strip_app, sw_str_plain by exact PH. reflexivity.
  - eexists; split; reflexivity.
  - eexists; split; reflexivity.
  - eexists; split; reflexivity.
  - discriminate W.
  - eexists; split; [reflexivity|]. cbn [sw_read]. rewrite strip_app, NV. reflexivity.
Qed.
Lemma swift_reads N t d v : names_ok N -> written d = true -> lits sw_plain d = true ->
  meaning N t d = Some v ->
  exists s, sw_default N t d = Some s /\ sw_read (n_class N) t s = Some v.
Proof.
  intros G W P H. destruct d as [|l].
  - now apply sw_natural_ok.
  - apply meaning_means in H. eapply sw_literal_ok; eassumption.
Qed.

