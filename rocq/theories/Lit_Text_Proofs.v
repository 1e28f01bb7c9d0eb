(** Lemmas on texts, digits and numbers. *)
From Verif Require Import Base Meta_Types Lit_Spec Lit_Model.
Local Open Scope Z_scope.

Lemma strip_app p s : strip p (p ++ s) = Some s.
Proof.
  induction p as [|a p IH]; [now destruct s|]. cbn.
  destruct (byte_eqb_spec a a); [exact IH|congruence].
Qed.
Lemma strip_some p : forall s r, strip p s = Some r -> s = p ++ r.
Proof.
  induction p as [|a p IH]; intros s r H; cbn in H.
  - destruct s; injection H as <-; reflexivity.
  - destruct s as [|b s]; [discriminate|]. destruct (byte_eqb_spec a b); [|discriminate].
    subst. cbn. f_equal. auto.
Qed.
Lemma strip_end_app p s : strip_end p (s ++ p) = Some s.
Proof. unfold strip_end. rewrite rev_app_distr, strip_app. cbn. now rewrite rev_involutive. Qed.
Lemma strip_end_some p s r : strip_end p s = Some r -> s = r ++ p.
Proof.
  unfold strip_end. destruct (strip (rev p) (rev s)) as [k|] eqn:E; [|discriminate].
  intros [= <-]. apply strip_some in E.
  rewrite <- (rev_involutive s), E, rev_app_distr, rev_involutive. reflexivity.
Qed.
Lemma strip_end_none c p s : ~ In c s -> strip_end (p ++ [c]) s = None.
Proof.
  intros H. destruct (strip_end (p ++ [c]) s) as [r|] eqn:E; [|reflexivity].
  apply strip_end_some in E. subst. exfalso. apply H. rewrite !in_app_iff. cbn. tauto.
Qed.
Lemma strip_none c p s : In c p -> ~ In c s -> strip p s = None.
Proof.
  intros I H. destruct (strip p s) as [r|] eqn:E; [|reflexivity].
  apply strip_some in E. subst. exfalso. apply H. rewrite in_app_iff. tauto.
Qed.
Lemma is_eq a b : is_ a b = true <-> a = b.
Proof. unfold is_. destruct (bytes_eqb_spec a b); split; congruence. Qed.
Lemma is_neq a b : a <> b -> is_ a b = false.
Proof. unfold is_. destruct (bytes_eqb_spec a b); congruence. Qed.
(** A text that has a byte the word lacks is not that word. *)
Lemma is_not c s w : In c s -> existsb (byte_eqb c) w = false -> is_ s w = false.
Proof.
  intros I E. apply is_neq. intros ->. rewrite (proj2 (existsb_exists _ _)) in E; [discriminate|].
  exists c. split; [exact I|]. destruct (byte_eqb_spec c c); congruence.
Qed.
Lemma existsb_not_in c s : existsb (byte_eqb c) s = false -> ~ In c s.
Proof.
  intros E I. rewrite (proj2 (existsb_exists _ _)) in E; [discriminate|].
  exists c. split; [exact I|]. destruct (byte_eqb_spec c c); congruence.
Qed.

(** * Digits *)

Lemma digit_of_byte d : 0 <= d < 16 -> digit_of (digit_byte d) = Some d.
Proof.
  intros H.
  assert (In d [0;1;2;3;4;5;6;7;8;9;10;11;12;13;14;15]) as I by (cbn; lia).
  cbn in I. repeat (destruct I as [<- | I]; [vm_compute; reflexivity|]). destruct I.
Qed.
Lemma digit_byte_dec d : 0 <= d < 10 -> is_digit (digit_byte d) = true.
Proof.
  intros H.
  assert (In d [0;1;2;3;4;5;6;7;8;9]) as I by (cbn; lia).
  cbn in I. repeat (destruct I as [<- | I]; [vm_compute; reflexivity|]). destruct I.
Qed.
Lemma digit_byte_zero d : 0 <= d < 16 -> digit_byte d = x30 -> d = 0.
Proof.
  intros H E. pose proof (digit_of_byte d H) as X. rewrite E in X.
  vm_compute in X. congruence.
Qed.

Lemma fmt_number b : 2 <= b <= 16 -> forall f n acc, 0 <= n < 2 ^ Z.of_nat f ->
  (0 < f)%nat -> number_ b 0 (fmt_ f b n acc) = number_ b n acc.
Proof.
  intros B. induction f as [|f IH]; intros n acc H F; [lia|].
  cbn [fmt_]. pose proof (Z.mod_pos_bound n b ltac:(lia)) as M.
  destruct (n <? b) eqn:E.
  - cbn [number_]. rewrite digit_of_byte by lia.
    rewrite (proj2 (Z.ltb_lt _ _)) by lia. rewrite Z.mod_small by lia. reflexivity.
  - pose proof (Z.div_mod n b ltac:(lia)) as D.
    rewrite IH.
    + cbn [number_]. rewrite digit_of_byte by lia.
      rewrite (proj2 (Z.ltb_lt _ _)) by lia. f_equal. lia.
    + split; [apply Z.div_pos; lia|].
      rewrite Nat2Z.inj_succ, Z.pow_succ_r in H by lia.
      apply Z.div_lt_upper_bound; nia.
    + destruct f; [|lia]. cbn in H. lia.
Qed.
Lemma fmt_head b : 2 <= b <= 16 -> forall f n acc, 0 <= n < 2 ^ Z.of_nat f -> (0 < f)%nat ->
  exists d r, fmt_ f b n acc = digit_byte d :: r /\ 0 <= d < b /\
    (d = 0 -> n = 0 /\ r = acc).
Proof.
  intros B. induction f as [|f IH]; intros n acc H F; [lia|].
  cbn [fmt_]. pose proof (Z.mod_pos_bound n b ltac:(lia)) as M.
  destruct (n <? b) eqn:E.
  - exists (n mod b), acc. rewrite Z.mod_small in * by lia. repeat split; lia.
  - assert (0 < f)%nat as F' by (destruct f; [cbn in H|]; lia).
    destruct (IH (n / b) (digit_byte (n mod b) :: acc)) as (d & r & Q & D & Z0); [|exact F'|].
    + split; [apply Z.div_pos; lia|].
      rewrite Nat2Z.inj_succ, Z.pow_succ_r in H by lia.
      apply Z.div_lt_upper_bound; nia.
    + exists d, r. split; [exact Q|]. split; [lia|]. intros ->.
      destruct (Z0 eq_refl) as [X _]. exfalso. apply Z.div_small_iff in X; lia.
Qed.
Lemma fmt_all b (P : byte -> Prop) : 2 <= b <= 16 -> (forall d, 0 <= d < b -> P (digit_byte d)) ->
  forall f n acc, Forall P acc -> Forall P (fmt_ f b n acc).
Proof.
  intros B G. induction f as [|f IH]; intros n acc A; cbn [fmt_]; [exact A|].
  pose proof (Z.mod_pos_bound n b ltac:(lia)).
  destruct (n <? b); [|apply IH]; constructor; auto.
Qed.
Lemma fuel_ok n : 0 <= n -> 0 <= n < 2 ^ Z.of_nat (S (Z.to_nat (Z.log2 n))).
Proof.
  intros H. split; [exact H|]. rewrite Nat2Z.inj_succ, Z2Nat.id by apply Z.log2_nonneg.
  destruct (Z.eq_dec n 0) as [-> | ]; [cbn; lia|]. apply Z.log2_spec. lia.
Qed.

Lemma number_fmt b n : 2 <= b <= 16 -> 0 <= n -> number b (fmt b n) = Some n.
Proof.
  intros B H. unfold fmt.
  destruct (fmt_head b B _ n [] (fuel_ok n H) ltac:(lia)) as (d & r & Q & _).
  pose proof (fmt_number b B _ n [] (fuel_ok n H) ltac:(lia)) as N.
  unfold number. rewrite Q in *. exact N.
Qed.
Lemma fmt_digits n : Forall (fun c => is_digit c = true) (fmt 10 n).
Proof. apply fmt_all; [lia|apply digit_byte_dec|constructor]. Qed.
Lemma fmt_cons b n : 2 <= b <= 16 -> 0 <= n -> exists d r, fmt b n = digit_byte d :: r /\
  0 <= d < b /\ (d = 0 -> n = 0 /\ r = []).
Proof. intros B H. exact (fmt_head b B _ n [] (fuel_ok n H) ltac:(lia)). Qed.
Lemma fmt_leading n : 0 <= n -> no_leading_zero (fmt 10 n) = true.
Proof.
  intros H. destruct (fmt_cons 10 n ltac:(lia) H) as (d & r & Q & D & Z0). unfold no_leading_zero.
  destruct (strip (S_ "0") (fmt 10 n)) as [[|c k]|] eqn:E; try reflexivity.
  apply strip_some in E. rewrite Q in E. change (S_ "0") with [x30] in E. injection E as E1 E2.
  apply digit_byte_zero in E1; [|lia]. destruct (Z0 E1) as [_ E3]. congruence.
Qed.

(** Bytes that do not occur in numbers. *)
Lemma digits_not_in c s : Forall (fun c => is_digit c = true) s -> is_digit c = false -> ~ In c s.
Proof. intros F E I. rewrite Forall_forall in F. rewrite (F c I) in E. discriminate. Qed.
Lemma fmt_not_in c b n : 2 <= b <= 16 -> digit_of c = None -> ~ In c (fmt b n).
Proof.
  intros B E I.
  assert (Forall (fun c => digit_of c <> None) (fmt b n)) as F.
  { apply fmt_all; [exact B| |constructor]. intros d D. rewrite digit_of_byte by lia. discriminate. }
  rewrite Forall_forall in F. exact (F c I E).
Qed.
Lemma digit_not_minus d : 0 <= d < 16 -> digit_byte d <> x2d.
Proof.
  intros H E. pose proof (digit_of_byte d H) as X. rewrite E in X. vm_compute in X. discriminate.
Qed.

(** * The three ways to write an integer *)

Lemma strip_one_other a c r : a <> c -> strip [a] (c :: r) = None.
Proof. intros N. cbn. destruct (byte_eqb_spec a c); congruence. Qed.
Lemma signed_nonneg rd c r : c <> x2d -> signed rd (c :: r) = rd (c :: r).
Proof.
  intros N. unfold signed. change (S_ "-") with [x2d]. rewrite strip_one_other by congruence.
  reflexivity.
Qed.
Lemma signed_minus rd r : signed rd (x2d :: r) = option_map Z.opp (rd r).
Proof. unfold signed. change (x2d :: r) with (S_ "-" ++ r). now rewrite strip_app. Qed.
Lemma signed_dec rd z : (forall n, 0 <= n -> n <= Z.abs z -> rd (fmt 10 n) = Some n) ->
  signed rd (show_dec z) = Some z.
Proof.
  intros R. unfold show_dec. destruct (z <? 0) eqn:E.
  - rewrite signed_minus, R by lia. cbn. f_equal. lia.
  - destruct (fmt_cons 10 z ltac:(lia) ltac:(lia)) as (d & r & Q & D & _). rewrite Q.
    rewrite signed_nonneg by (apply digit_not_minus; lia). rewrite <- Q. apply R; lia.
Qed.
Lemma signed_other rd p s : p <> x2d -> signed rd (p :: s) = rd (p :: s).
Proof. apply signed_nonneg. Qed.

Lemma dec_not_in c z : digit_of c = None -> c <> x2d -> ~ In c (show_dec z).
Proof.
  intros D N. unfold show_dec. destruct (z <? 0); cbn.
  - intros [E|I]; [congruence|]. exact (fmt_not_in c 10 _ ltac:(lia) D I).
  - exact (fmt_not_in c 10 _ ltac:(lia) D).
Qed.
Lemma fmt_no_prefix p n : existsb (fun c => negb (is_digit c)) p = true ->
  strip p (fmt 10 n) = None.
Proof.
  intros E. apply existsb_exists in E. destruct E as (c & I & N).
  apply (strip_none c); [exact I|]. apply digits_not_in; [apply fmt_digits|].
  now destruct (is_digit c).
Qed.
Lemma show_hex_small z : 0 <= z < 2 ^ 64 -> show_hex z = S_ "0x" ++ fmt 16 z.
Proof. intros H. unfold show_hex. now rewrite Z.mod_small. Qed.
Lemma show_oct_small z : 0 <= z < 2 ^ 64 -> show_oct z = fmt 8 z.
Proof. intros H. unfold show_oct. now rewrite Z.mod_small. Qed.

Lemma py_uint_dec n : 0 <= n -> py_uint (fmt 10 n) = Some n.
Proof.
  intros H. unfold py_uint. rewrite !fmt_no_prefix by reflexivity.
  rewrite fmt_leading by exact H. apply number_fmt; lia.
Qed.
Lemma sw_uint_dec n : 0 <= n -> sw_uint (fmt 10 n) = Some n.
Proof.
  intros H. unfold sw_uint. rewrite !fmt_no_prefix by reflexivity. apply number_fmt; lia.
Qed.
Lemma kt_uint_dec m n : 0 <= n <= m -> kt_uint m (fmt 10 n) = Some n.
Proof.
  intros H. unfold kt_uint. rewrite !fmt_no_prefix by reflexivity.
  rewrite fmt_leading, number_fmt by lia. rewrite (proj2 (Z.leb_le _ _)) by lia. reflexivity.
Qed.
Lemma kt_uint_hex m n : 0 <= n <= m -> n < 2 ^ 64 -> kt_uint m (show_hex n) = Some n.
Proof.
  intros H L. rewrite show_hex_small by lia. unfold kt_uint. rewrite strip_app.
  rewrite number_fmt by lia. rewrite (proj2 (Z.leb_le _ _)) by lia. reflexivity.
Qed.
