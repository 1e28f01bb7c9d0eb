From Coq Require Import Decimal DecimalZ DecimalPos DecimalN DecimalFacts.
From Verif Require Import Base Utf8 Utf8_Proofs Meta_Types Meta_Model Meta_Spec.
Open Scope Z_scope.

(** * Executing a chain of calls *)

Definition call_bytes (c : call) : bytes :=
  match c with
  | CValue v => [v]
  | CLen n => [n2b (N.of_nat n)]
  | CU32 v => le_bytes 4 (Z.to_N v)
  | CBool v => [if v then x01 else x00]
  | CStr s => n2b (N.of_nat (length s)) :: s
  | CLong s => le_bytes 2 (N.of_nat (length s)) ++ s
  | CBuf (Some o) => o
  | CBuf None => []
  end.
Definition cok (c : call) : Prop :=
  match c with
  | CLen n => Z.of_nat n < 256
  | CStr s => size s < 256
  | CLong s => size s < 65536
  | CBuf None => False
  | _ => True
  end.
Definition cb (cs : list call) : bytes := flat_map call_bytes cs.

Lemma cb_cons c cs : cb (c :: cs) = call_bytes c ++ cb cs.
Proof. reflexivity. Qed.
Lemma cb_app a b : cb (a ++ b) = cb a ++ cb b.
Proof. apply flat_map_app. Qed.

Lemma size_app a b : size (a ++ b) = size a + size b.
Proof. unfold size. rewrite app_length. lia. Qed.
Lemma size_nonneg a : 0 <= size a.
Proof. unfold size. lia. Qed.

Lemma exec1_spec b c r :
  exec1 b c = Some r <-> cok c /\ size (b ++ call_bytes c) <= BUF_SIZE /\ r = b ++ call_bytes c.
Proof.
  rewrite size_app. pose proof (size_nonneg b) as Hb.
  destruct c as [v|n|v|v|s|s|[o|]]; cbn [exec1 cok call_bytes];
    unfold concat_value, concat_u32, concat_bool, concat_value, concat_str, concat_long_str,
      concat_buf.
  - replace (size [v]) with 1 by reflexivity.
    destruct (Z.ltb_spec (size b) BUF_SIZE); split; try discriminate; intuition (subst; auto; try lia; try congruence).
  - replace (size [n2b (N.of_nat n)]) with 1 by reflexivity.
    destruct (Z.ltb_spec (Z.of_nat n) 256), (Z.ltb_spec (size b) BUF_SIZE); split; try discriminate;
      intuition (subst; auto; try lia; try congruence).
  - replace (size (le_bytes 4 (Z.to_N v))) with 4 by (unfold size; rewrite le_bytes_length; reflexivity).
    destruct (Z.leb_spec (size b + 4) BUF_SIZE); split; try discriminate; intuition (subst; auto; try lia; try congruence).
  - replace (size [if v then x01 else x00]) with 1 by reflexivity.
    destruct (Z.ltb_spec (size b) BUF_SIZE); split; try discriminate; intuition (subst; auto; try lia; try congruence).
  - replace (size (n2b (N.of_nat (length s)) :: s)) with (size s + 1) by (unfold size; cbn [length]; lia).
    destruct (Z.ltb_spec (size s) 256), (Z.ltb_spec (size b + size s) BUF_SIZE); cbn [andb]; split; try discriminate;
      intuition (subst; auto; try lia; try congruence).
  - replace (size (le_bytes 2 (N.of_nat (length s)) ++ s)) with (size s + 2)
      by (unfold size; rewrite app_length, le_bytes_length; lia).
    unfold BUF_SIZE in *.
    destruct (Z.ltb_spec (size b + size s + 1) 32768); split; try discriminate; intuition (subst; auto; try lia; try congruence).
  - destruct (Z.leb_spec (size b + size o) BUF_SIZE); split; try discriminate; intuition (subst; auto; try lia; try congruence).
  - split; [discriminate|intuition].
Qed.

Lemma exec_from_spec cs b r :
  size b <= BUF_SIZE ->
  (exec_from b cs = Some r <->
   Forall cok cs /\ size (b ++ cb cs) <= BUF_SIZE /\ r = b ++ cb cs).
Proof.
  revert b; induction cs as [|c cs IH]; intros b Hb; cbn [exec_from].
  - cbn [cb flat_map]. rewrite app_nil_r. split; [intros [= <-]; auto|intros (_ & _ & ->); auto].
  - rewrite cb_cons, app_assoc.
    pose proof (exec1_spec b c) as E1.
    destruct (exec1 b c) as [b'|] eqn:E.
    + destruct (E1 b') as [F _]. destruct (F eq_refl) as (K & Sz & ->).
      rewrite (IH _ Sz). split.
      * intros (A & B & C); repeat split; auto.
      * intros (A & B & C); inversion A; repeat split; auto.
    + split; [discriminate|]. intros (A & B & ->). inversion A as [|? ? K A']; subst.
      destruct (E1 (b ++ call_bytes c)) as [_ G].
      assert (size (b ++ call_bytes c) <= BUF_SIZE)
        by (rewrite size_app in B; pose proof (size_nonneg (cb cs)); lia).
      discriminate (G (conj K (conj H eq_refl))).
Qed.

Lemma exec_spec cs r :
  exec cs = Some r <-> Forall cok cs /\ size (cb cs) <= BUF_SIZE /\ r = cb cs.
Proof. unfold exec. rewrite exec_from_spec; [reflexivity|]. unfold size, BUF_SIZE; cbn; lia. Qed.

Lemma exec_some cs r : exec cs = Some r -> Forall cok cs /\ r = cb cs.
Proof. rewrite exec_spec. tauto. Qed.

(** * Parts *)

Lemma n2b_N n : (n < 256)%N -> b2n (n2b n) = n.
Proof. intros. rewrite b2n_n2b. apply N.mod_small; auto. Qed.

Transparent le_bytes le_val.
Lemma le2 n : le_bytes 2 n = [n2b n; n2b (n / 256)].
Proof. reflexivity. Qed.
Lemma le4 n : le_bytes 4 n = [n2b n; n2b (n / 256); n2b (n / 256 / 256); n2b (n / 256 / 256 / 256)].
Proof. reflexivity. Qed.
Opaque le_bytes le_val.

Lemma n2b_of b n : b2n b = n -> n2b n = b.
Proof. intros <-. apply n2b_b2n. Qed.

Lemma part_bytes c p : typed_call c -> (part c p <-> cok c /\ p = call_bytes c).
Proof.
  intros T. destruct c as [v|n|v|v|s|s|[o|]]; cbn [part cok call_bytes typed_call] in *.
  - tauto.
  - split.
    + intros (l & -> & E). pose proof (b2n_lt l). rewrite (n2b_of _ _ E). split; [lia|auto].
    + intros (H & ->). eexists; split; [reflexivity|]. apply n2b_N. lia.
  - split.
    + intros (a & b & c & e & -> & E). split; [auto|].
      pose proof (b2n_lt a); pose proof (b2n_lt b); pose proof (b2n_lt c); pose proof (b2n_lt e).
      rewrite le4. set (n := Z.to_N v).
      assert (N : n = (b2n a + 256 * (b2n b + 256 * (b2n c + 256 * b2n e)))%N) by (unfold n; lia).
      clearbody n. subst n.
      assert (Q : forall x y, (x < 256)%N -> ((x + 256 * y) / 256 = y)%N)
        by (intros x y Hx; rewrite N.mul_comm, N.div_add, N.div_small by lia; lia).
      assert (W : forall x y z, b2n z = x -> (n2b (x + 256 * y) = z)%N).
      { intros x y z <-. apply b2n_inj. rewrite b2n_n2b.
        rewrite N.mul_comm, N.mod_add by lia. apply N.mod_small, b2n_lt. }
      rewrite !Q by auto. rewrite (W _ _ a), (W _ _ b), (W _ _ c) by auto. rewrite n2b_b2n. auto.
    + intros (_ & ->). rewrite le4. do 4 eexists. split; [reflexivity|]. rewrite !b2n_n2b.
      set (n := Z.to_N v). assert (V : v = Z.of_N n) by (unfold n; lia).
      assert ((n < 2 ^ 32)%N) by lia. clearbody n; subst v.
      pose proof (N.div_mod n 256 ltac:(lia)) as D0.
      pose proof (N.div_mod (n / 256) 256 ltac:(lia)) as D1.
      pose proof (N.div_mod (n / 256 / 256) 256 ltac:(lia)) as D2.
      assert (D3 : ((n / 256 / 256 / 256) mod 256 = n / 256 / 256 / 256)%N).
      { apply N.mod_small. rewrite !N.div_div by lia. apply N.div_lt_upper_bound; [lia|].
        change (256 * 256 * 256 * 256)%N with (2 ^ 32)%N. auto. }
      rewrite D3. lia.
  - tauto.
  - split.
    + intros (l & -> & E). pose proof (b2n_lt l). rewrite (n2b_of _ _ E). unfold size. split; [lia|auto].
    + intros (H & ->). eexists; split; [reflexivity|]. unfold size in H. apply n2b_N. lia.
  - split.
    + intros (lo & hi & -> & E). pose proof (b2n_lt lo); pose proof (b2n_lt hi).
      unfold size. split; [lia|]. rewrite le2, <- E.
      replace ((b2n lo + 256 * b2n hi) / 256)%N with (b2n hi)
        by (rewrite N.mul_comm, N.div_add, N.div_small by lia; lia).
      rewrite n2b_b2n. cbn [app]. f_equal. apply b2n_inj. rewrite b2n_n2b.
      rewrite N.mul_comm, N.mod_add by lia. symmetry; apply N.mod_small; auto.
    + intros (H & ->). unfold size in H. rewrite le2. do 2 eexists. split; [reflexivity|].
      rewrite !b2n_n2b. rewrite (N.mod_small (_ / _)%N).
      * rewrite (N.div_mod (N.of_nat (length s)) 256) at 3 by lia. lia.
      * apply N.div_lt_upper_bound; lia.
  - split; [intros [= ->]; auto|intros [_ ->]; auto].
  - split; [discriminate|tauto].
Qed.

Lemma parts_exec cs b :
  Forall typed_call cs ->
  (exec cs = Some b <->
   exists ps, Forall2 part cs ps /\ b = concat ps /\ size b <= BUF_SIZE).
Proof.
  intros T. rewrite exec_spec.
  assert (E : forall ps, Forall2 part cs ps <-> Forall cok cs /\ ps = map call_bytes cs).
  { intros ps. revert ps. induction T as [|c cs Hc T IH]; intros ps.
    - split; [intros X; inversion X; subst; auto|intros [_ ->]; constructor].
    - split.
      + intros X; inversion X as [|? p ? ps' P X']; subst.
        apply part_bytes in P as [K ->]; auto. apply IH in X' as [K' ->]. split; [constructor; auto|auto].
      + intros [K ->]. inversion K; subst. cbn [map]. constructor.
        * apply part_bytes; auto.
        * apply IH; auto. }
  split.
  - intros (K & Sz & ->). exists (map call_bytes cs). split; [apply E; auto|].
    rewrite <- flat_map_concat_map. auto.
  - intros (ps & P & -> & Sz). apply E in P as [K ->]. rewrite <- flat_map_concat_map in *. auto.
Qed.

(** * Reading what was written *)

Definition readsr {A} (p : rd A) (cs : list call) (X : bytes -> A) : Prop :=
  Forall cok cs -> forall r, p (cb cs ++ r) = Ok (X r, r).
Definition reads {A} (p : rd A) (cs : list call) (x : A) : Prop := readsr p cs (fun _ => x).

Lemma rbind_ok {A B} (p : rd A) (f : A -> rd B) b x r : p b = Ok (x, r) -> rbind p f b = f x r.
Proof. unfold rbind. intros ->. reflexivity. Qed.

Lemma readsr_ret {A} (x : A) : reads (ret x) [] x.
Proof. intros _ r. reflexivity. Qed.
Lemma readsr_bind {A B} (p : rd A) (f : A -> rd B) c1 c2 x Y :
  reads p c1 x -> readsr (f x) c2 Y -> readsr (rbind p f) (c1 ++ c2) Y.
Proof.
  intros P F K r. apply Forall_app in K as [K1 K2]. rewrite cb_app, <- app_assoc.
  erewrite rbind_ok by (apply P; auto). apply F; auto.
Qed.
Lemma readsr_cons {A B} (p : rd A) (f : A -> rd B) c c2 x Y :
  reads p [c] x -> readsr (f x) c2 Y -> readsr (rbind p f) (c :: c2) Y.
Proof. apply (readsr_bind p f [c]). Qed.
Lemma readsr_last {A B} (p : rd A) (f : A -> rd B) cs x Y :
  reads p cs x -> readsr (f x) [] Y -> readsr (rbind p f) cs Y.
Proof. intros P F. rewrite <- (app_nil_r cs). eapply readsr_bind; eauto. Qed.

Lemma reads_u8 v : reads read_u8 [CValue v] v.
Proof. intros _ r. reflexivity. Qed.
Lemma reads_bool b : reads read_bool [CBool b] b.
Proof. intros _ r. destruct b; reflexivity. Qed.

Lemma take_str_app s r : utf8 s -> take_str (length s) (s ++ r) = Ok (s, r).
Proof. intros U. unfold take_str. rewrite split_n_app by reflexivity. unfold utf8 in U. rewrite U. auto. Qed.

Lemma reads_str s : utf8 s -> reads read_string [CStr s] s.
Proof.
  intros U K r. inversion K as [|? ? Ks _]; subst. cbn [cok] in Ks. unfold size in Ks.
  cbn [cb flat_map call_bytes]. rewrite app_nil_r. cbn [app]. unfold read_string.
  erewrite rbind_ok by reflexivity. rewrite n2b_N by lia. rewrite Nat2N.id. apply take_str_app; auto.
Qed.

Lemma read_le_app k n r : (n < pow256 k)%N -> read_le k (le_bytes k n ++ r) = Ok (Z.of_N n, r).
Proof.
  intros H. unfold read_le. rewrite split_n_app by apply le_bytes_length.
  rewrite le_val_bytes, N.mod_small; auto.
Qed.

Lemma reads_u32 v : 0 <= v < 2 ^ 32 -> reads read_u32 [CU32 v] v.
Proof.
  intros H K r. cbn [cb flat_map call_bytes]. rewrite app_nil_r. unfold read_u32.
  rewrite read_le_app.
  - rewrite Z2N.id by lia. auto.
  - change (pow256 4) with (2 ^ 32)%N. lia.
Qed.

Lemma reads_long s : utf8 s -> reads read_long_string [CLong s] s.
Proof.
  intros U K r. inversion K as [|? ? Ks _]; subst. cbn [cok] in Ks. unfold size in Ks.
  cbn [cb flat_map call_bytes]. rewrite app_nil_r, <- app_assoc. unfold read_long_string, read_u16.
  erewrite rbind_ok
    by (apply read_le_app; change (pow256 2) with 65536%N; lia).
  replace (Z.to_nat (Z.of_N (N.of_nat (length s)))) with (length s) by lia.
  apply take_str_app; auto.
Qed.

Lemma reads_doc o : doc_ok o -> reads read_opt_long_string (doc_calls o) o.
Proof.
  intros H. unfold read_opt_long_string. destruct o as [s|]; cbn [doc_calls doc_ok opt_all] in *.
  - destruct H as [U N]. eapply readsr_last; [apply reads_long; auto|].
    destruct s; [congruence|]. apply readsr_ret.
  - eapply readsr_last; [apply reads_long; reflexivity|]. apply readsr_ret.
Qed.

Lemma reads_orig o : opt_all utf8 o -> reads read_opt_string (orig_calls o) o.
Proof.
  intros H. unfold read_opt_string. destruct o as [s|]; cbn [orig_calls opt_all] in *.
  - eapply readsr_cons; [apply reads_bool|]. cbn iota.
    eapply readsr_last; [apply reads_str; auto|]. apply readsr_ret.
  - eapply readsr_last; [apply reads_bool|]. apply readsr_ret.
Qed.

Lemma reads_buf {A} (p : rd A) (c : option bytes) x :
  (forall b r, c = Some b -> p (b ++ r) = Ok (x, r)) -> reads p [CBuf c] x.
Proof.
  intros H K r. inversion K as [|? ? Kc _]; subst. destruct c as [b|]; cbn [cok] in Kc; [|tauto].
  cbn [cb flat_map call_bytes]. rewrite app_nil_r. apply H; auto.
Qed.
Lemma reads_exec {A} (p : rd A) cs x : reads p cs x -> reads p [CBuf (exec cs)] x.
Proof.
  intros H. apply reads_buf. intros b r E. apply exec_some in E as [K ->]. apply H; auto.
Qed.

Lemma tcode_of_byte c : tcode_of (tcode_byte c) = Some c.
Proof. destruct c; reflexivity. Qed.
Lemma icode_of_byte c : icode_of (icode_byte c) = Some c.
Proof. destruct c; reflexivity. Qed.
Lemma lcode_of_byte c : lcode_of (lcode_byte c) = Some c.
Proof. destruct c; reflexivity. Qed.
Lemma kind_of_byte c : kind_of (kind_byte c) = Some c.
Proof. destruct c; reflexivity. Qed.
Lemma shape_of_byte c : shape_of (shape_byte c) = Some c.
Proof. destruct c as [|[]]; reflexivity. Qed.

Lemma reads_kind k : reads read_trait_kind [CValue (kind_byte k)] k.
Proof.
  unfold read_trait_kind. eapply readsr_last; [apply reads_u8|]. rewrite kind_of_byte. apply readsr_ret.
Qed.

Lemma bytes_eqb_refl a : bytes_eqb a a = true.
Proof. destruct (bytes_eqb_spec a a); congruence. Qed.

Lemma ty_eqb_u8 t : ty_eqb t TU8 = true <-> t = TU8.
Proof. destruct t; cbn; split; intros; congruence. Qed.

(** The calls of [type_id], to work with [reads]. *)
Definition type_calls (t : ty) : list call :=
  let c k := CValue (tcode_byte k) in
  match t with
  | TU8 => [c TYPE_U8] | TI8 => [c TYPE_I8]
  | TU16 => [c TYPE_U16] | TI16 => [c TYPE_I16]
  | TU32 => [c TYPE_U32] | TI32 => [c TYPE_I32]
  | TU64 => [c TYPE_U64] | TI64 => [c TYPE_I64]
  | TF32 => [c TYPE_F32] | TF64 => [c TYPE_F64]
  | TBool => [c TYPE_BOOL]
  | TString => [c TYPE_STRING]
  | TBytes => [c TYPE_VEC; CBuf (exec [c TYPE_U8])]
  | TTimestamp => [c TYPE_SYSTEM_TIME]
  | TDuration => [c TYPE_DURATION]
  | TObject mp n IStruct => [c TYPE_INTERFACE; CStr mp; CStr n]
  | TObject mp n (ITrait k) => [c TYPE_TRAIT_INTERFACE; CStr mp; CStr n; CValue (kind_byte k)]
  | TRecord mp n => [c TYPE_RECORD; CStr mp; CStr n]
  | TEnum mp n => [c TYPE_ENUM; CStr mp; CStr n]
  | TCallback mp n => [c TYPE_CALLBACK_INTERFACE; CStr mp; CStr n]
  | TBox t => [c TYPE_BOX; CBuf (type_id t)]
  | TOption t => [c TYPE_OPTION; CBuf (type_id t)]
  | TSeq t => [c TYPE_VEC; CBuf (type_id t)]
  | TSet t => [c TYPE_HASH_SET; CBuf (type_id t)]
  | TMap k v => [c TYPE_HASH_MAP; CBuf (type_id k); CBuf (type_id v)]
  | TCustom mp n t => [c TYPE_CUSTOM; CStr mp; CStr n; CBuf (type_id t)]
  end.
Lemma type_id_calls t : type_id t = exec (type_calls t).
Proof. destruct t as [| | | | | | | | | | | | | | |? ? []| | | | | | | | |]; reflexivity. Qed.

Ltac step_code :=
  eapply readsr_cons; [apply reads_u8|]; rewrite ?tcode_of_byte, ?icode_of_byte, ?lcode_of_byte; cbv beta iota.
Ltac last_code :=
  eapply readsr_last; [apply reads_u8|]; rewrite ?tcode_of_byte, ?icode_of_byte, ?lcode_of_byte; cbv beta iota.

Lemma reads_type_calls t : forall d, ty_ok d t -> reads (read_type d) (type_calls t) t.
Proof.
  unfold ty_ok.
  assert (B : forall t, (forall d, ty_recordable t /\ (ty_depth t <= d)%nat ->
                         reads (read_type d) (type_calls t) t) ->
              forall d, ty_recordable t /\ (ty_depth t <= d)%nat ->
                        reads (read_type d) [CBuf (type_id t)] t).
  { intros u H d K. rewrite type_id_calls. apply reads_exec. auto. }
  induction t as [| | | | | | | | | | | | | | |mp n [|k]|mp n|mp n|mp n|t IH|t IH|t IH|t IH
                 |k IHk v IHv|mp n t IH]; intros d [R D];
    cbn [ty_depth ty_recordable type_calls] in *; (destruct d as [|d]; [lia|]); cbn [read_type].
  1-12,14-15: last_code; apply readsr_ret.
  - step_code. destruct d as [|d]; [lia|]. eapply readsr_last.
    + apply reads_exec. cbn [read_type]. last_code. apply readsr_ret.
    + apply readsr_ret.
  - destruct R. step_code. eapply readsr_cons; [apply reads_str; auto|].
    eapply readsr_last; [apply reads_str; auto|]. apply readsr_ret.
  - destruct R. step_code. do 2 (eapply readsr_cons; [apply reads_str; auto|]).
    eapply readsr_last; [apply reads_kind; auto|]. apply readsr_ret.
  - destruct R. step_code. eapply readsr_cons; [apply reads_str; auto|].
    eapply readsr_last; [apply reads_str; auto|]. apply readsr_ret.
  - destruct R. step_code. eapply readsr_cons; [apply reads_str; auto|].
    eapply readsr_last; [apply reads_str; auto|]. apply readsr_ret.
  - destruct R. step_code. eapply readsr_cons; [apply reads_str; auto|].
    eapply readsr_last; [apply reads_str; auto|]. apply readsr_ret.
  - step_code. eapply readsr_last; [apply B; auto; split; auto; lia|]. apply readsr_ret.
  - step_code. eapply readsr_last; [apply B; auto; split; auto; lia|]. apply readsr_ret.
  - destruct R as [N R]. step_code. eapply readsr_last; [apply B; auto; split; auto; lia|].
    destruct (ty_eqb t TU8) eqn:E; [apply ty_eqb_u8 in E; congruence|]. apply readsr_ret.
  - step_code. eapply readsr_last; [apply B; auto; split; auto; lia|]. apply readsr_ret.
  - destruct R. step_code. eapply readsr_cons; [apply B; auto; split; auto; lia|].
    eapply readsr_last; [apply B; auto; split; auto; lia|]. apply readsr_ret.
  - destruct R as (U1 & U2 & R). step_code. do 2 (eapply readsr_cons; [apply reads_str; auto|]).
    eapply readsr_last; [apply B; auto; split; auto; lia|]. apply readsr_ret.
Qed.
Lemma reads_type t d : ty_ok d t -> reads (read_type d) [CBuf (type_id t)] t.
Proof. intros H. rewrite type_id_calls. apply reads_exec, reads_type_calls; auto. Qed.

(** * Literals *)

Lemma parse_uint_bytes u : parse_digits (uint_bytes u) = Some u.
Proof. induction u; cbn [uint_bytes parse_digits]; rewrite ?IHu; reflexivity. Qed.

Lemma uint_bytes_head u : uint_bytes u = [] \/
  exists b r, uint_bytes u = b :: r /\ b <> x2b /\ b <> x2d.
Proof. destruct u; cbn; [auto|..]; right; do 2 eexists; (split; [reflexivity|split; discriminate]). Qed.

Lemma to_int_cases z :
  exists u, u <> Nil /\
    ((Z.to_int z = Pos u /\ Z.of_uint u = z /\ 0 <= z) \/
     (Z.to_int z = Neg u /\ - Z.of_uint u = z /\ z < 0)).
Proof.
  pose proof (DecimalZ.of_to z) as H. destruct z as [|p|p]; cbn in *.
  - exists (D0 Nil). split; [discriminate|]. left. repeat split; reflexivity || lia.
  - exists (Pos.to_uint p). split.
    + intros E. pose proof (DecimalPos.Unsigned.to_uint_nonnil p). auto.
    + left. repeat split; auto; lia.
  - exists (Pos.to_uint p). split.
    + intros E. pose proof (DecimalPos.Unsigned.to_uint_nonnil p). auto.
    + right. repeat split; auto; lia.
Qed.

Lemma parse_int_digits sg lo hi z :
  lo <= z <= hi -> (sg = true \/ 0 <= z) -> parse_int sg lo hi (digits z) = Some z.
Proof.
  intros R S. unfold digits. destruct (to_int_cases z) as (u & NE & [(E & V & P) | (E & V & P)]); rewrite E.
  - destruct (uint_bytes_head u) as [H | (b & r & H & N1 & N2)].
    + destruct u; try discriminate. congruence.
    + assert (PN : parse_nonempty (b :: r) = Some u)
        by (unfold parse_nonempty; rewrite <- H; apply parse_uint_bytes).
      rewrite H. unfold parse_int.
      assert (E' : match b :: r with
                   | x2b :: r => option_map Z.of_uint (parse_nonempty r)
                   | x2d :: r => if sg then option_map (fun u => - Z.of_uint u) (parse_nonempty r) else None
                   | _ => option_map Z.of_uint (parse_nonempty (b :: r))
                   end = Some z).
      { rewrite PN. cbn [option_map]. destruct b; try congruence. }
      rewrite E'. destruct (Z.leb_spec lo z), (Z.leb_spec z hi); cbn; auto; lia.
  - destruct S as [-> | S]; [|lia]. unfold parse_int.
    destruct (uint_bytes_head u) as [H | (b & r & H & N1 & N2)].
    + destruct u; try discriminate. congruence.
    + assert (PN : parse_nonempty (uint_bytes u) = Some u)
        by (rewrite H; unfold parse_nonempty; rewrite <- H; apply parse_uint_bytes).
      rewrite PN. cbn [option_map]. rewrite V.
      destruct (Z.leb_spec lo z), (Z.leb_spec z hi); cbn; auto; lia.
Qed.

Lemma digits_head z :
  (0 <= z -> match digits z with x2d :: _ => False | _ => True end) /\
  (z < 0 -> exists r, digits z = x2d :: r).
Proof.
  unfold digits. destruct (to_int_cases z) as (u & NE & [(E & V & P) | (E & V & P)]); rewrite E; split; try lia; intros _.
  - destruct (uint_bytes_head u) as [-> | (b & r & -> & N1 & N2)]; [exact I|]. destruct b; try exact I; congruence.
  - eauto.
Qed.

Lemma digits_utf8 z : utf8 (digits z).
Proof.
  assert (H : forall u, uint_bytes u = utf8_enc (map b2n (uint_bytes u)) /\
                        Forall scalar (map b2n (uint_bytes u))).
  { induction u; [split; [reflexivity|constructor]|..]; destruct IHu as [A B];
      cbn [uint_bytes map]; (split; [|constructor; [left; vm_compute; reflexivity|exact B]]);
      unfold utf8_enc in *; cbn [flat_map]; rewrite <- A;
      match goal with |- ?b :: ?r = _ => change (utf8_enc1 (b2n b)) with [b]; reflexivity end. }
  unfold utf8, digits. destruct (Z.to_int z) as [u|u]; destruct (H u) as [A B].
  - rewrite A. apply utf8_enc_valid; auto.
  - replace (x2d :: uint_bytes u) with (utf8_enc (b2n x2d :: map b2n (uint_bytes u))).
    + apply utf8_enc_valid. constructor; auto. left. vm_compute. reflexivity.
    + unfold utf8_enc in *. cbn [flat_map]. rewrite <- A. reflexivity.
Qed.

Lemma unwrap_base t : unwrap_custom t = base_type t.
Proof. reflexivity. Qed.

Lemma int_lit_unsigned t n z :
  unsigned_bits t = Some n -> 0 <= z < 2 ^ n -> int_lit t (digits z) = Some (LUInt z Decimal_ t).
Proof.
  intros B R. unfold int_lit.
  assert (N : match digits z, t with x2d :: _, TU64 => TI64 | _, _ => t end = t).
  { destruct (digits_head z) as [H _]. specialize (H ltac:(lia)).
    destruct (digits z) as [|b r]; auto. destruct b; auto. destruct H. }
  rewrite N. destruct t; try discriminate; injection B as <-; cbn [int_range];
    rewrite parse_int_digits by (auto; lia); reflexivity.
Qed.

Lemma int_lit_signed t n z :
  signed_bits t = Some n -> - 2 ^ (n - 1) <= z < 2 ^ (n - 1) ->
  int_lit t (digits z) = Some (LInt z Decimal_ t).
Proof.
  intros B R. unfold int_lit.
  assert (N : match digits z, t with x2d :: _, TU64 => TI64 | _, _ => t end = t).
  { destruct (digits z) as [|b r]; auto. destruct b, t; auto; discriminate. }
  rewrite N. destruct t; try discriminate; injection B as <-; cbn [int_range];
    rewrite parse_int_digits by (auto; lia); reflexivity.
Qed.

Lemma int_lit_neg z : - 2 ^ 63 <= z < 0 -> int_lit TU64 (digits z) = Some (LInt z Decimal_ TI64).
Proof.
  intros R. unfold int_lit. destruct (digits_head z) as [_ H]. destruct (H ltac:(lia)) as [r E].
  rewrite E. cbn iota. cbn [int_range]. rewrite <- E. rewrite parse_int_digits by (auto; lia). reflexivity.
Qed.

Scheme literal_mind := Induction for literal Sort Prop
  with default_mind := Induction for default Sort Prop.
Combined Scheme lit_mutind from literal_mind, default_mind.

Lemma read_literal_unfold t :
  read_literal t =
  read_literal_ (match base_type t with
                 | TOption u => x <- read_default u ;; ret (LSome x)
                 | _ => fail
                 end) (base_type t).
Proof. destruct t as [| | | | | | | | | | | | | | | | | | | | | | | |? ? []]; reflexivity. Qed.

Lemma reads_lit :
  (forall l t, lit_ok t l -> reads (read_literal t) (lit_calls l) l) /\
  (forall d t, default_ok t d -> reads (read_default t) (default_calls d) d).
Proof.
  apply lit_mutind; intros; cbn [lit_ok default_ok] in *; try contradiction;
    rewrite ?read_literal_unfold; cbn [lit_calls default_calls]; unfold read_literal_.
  - step_code. eapply readsr_last; [apply reads_bool|]. apply readsr_ret.
  - destruct H as [-> U]. step_code. eapply readsr_last; [apply reads_str; auto|]. apply readsr_ret.
  - destruct H as (-> & -> & n & B & R). step_code.
    eapply readsr_last; [apply reads_str, digits_utf8|]. erewrite int_lit_unsigned by eauto. apply readsr_ret.
  - destruct H as (-> & (n & B & R) & H). step_code.
    eapply readsr_last; [apply reads_str, digits_utf8|].
    destruct H as [-> | (-> & -> & N)].
    + erewrite int_lit_signed by eauto. apply readsr_ret.
    + injection B as <-. rewrite int_lit_neg by (change (64 - 1) with 63 in R; lia). apply readsr_ret.
  - destruct H as (-> & F & U). step_code.
    destruct (base_type t0); destruct F as [F | F]; try discriminate F;
      (eapply readsr_last; [apply reads_str; auto|]; apply readsr_ret).
  - last_code. apply readsr_ret.
  - destruct H as [u ->]. last_code. apply readsr_ret.
  - destruct H0 as (u & -> & K). step_code.
    eapply readsr_last; [apply H; exact K|]. apply readsr_ret.
  - unfold read_default, read_default_. last_code. apply readsr_ret.
  - unfold read_default, read_default_. eapply readsr_cons; [apply reads_u8|].
    change (Byte.eqb DEFVALUE_LITERAL DEFVALUE_DEFAULT) with false.
    change (Byte.eqb DEFVALUE_LITERAL DEFVALUE_LITERAL) with true. cbv beta iota.
    eapply readsr_last; [apply H; auto|]. apply readsr_ret.
Qed.

Lemma reads_opt_default t o :
  opt_all (default_ok t) o -> reads (read_opt_default t) (opt_default_calls o) o.
Proof.
  intros H. unfold read_opt_default. destruct o as [x|]; cbn [opt_all opt_default_calls] in *.
  - eapply readsr_cons; [apply reads_bool|]. cbv beta iota.
    eapply readsr_last; [apply reads_lit; auto|]. apply readsr_ret.
  - eapply readsr_last; [apply reads_bool|]. apply readsr_ret.
Qed.
Lemma reads_opt_literal t o :
  opt_all (lit_ok t) o -> reads (read_opt_literal t) (discr_calls o) o.
Proof.
  intros H. unfold read_opt_literal. destruct o as [x|]; cbn [opt_all discr_calls] in *.
  - eapply readsr_cons; [apply reads_bool|]. cbv beta iota.
    eapply readsr_last; [apply reads_lit; auto|]. apply readsr_ret.
  - eapply readsr_last; [apply reads_bool|]. apply readsr_ret.
Qed.

(** * Lists and the parts of items *)

Lemma reads_n {A} (p : rd A) f (P : A -> Prop) l :
  (forall x, P x -> reads p (f x) x) -> Forall P l -> reads (read_n (length l) p) (flat_map f l) l.
Proof.
  intros H F. induction F as [|x l Px F IH]; cbn [length read_n flat_map].
  - apply readsr_ret.
  - eapply readsr_bind; [apply H; auto|]. eapply readsr_last; [apply IH|]. apply readsr_ret.
Qed.

Lemma reads_list {A} (p : rd A) f (P : A -> Prop) l :
  (forall x, P x -> reads p (f x) x) -> Forall P l -> reads (read_list p) (counted f l) l.
Proof.
  intros H F K r. unfold counted in *. inversion K as [|? ? Kn Kl]; subst. cbn [cok] in Kn.
  rewrite cb_cons. cbn [call_bytes app]. unfold read_list. erewrite rbind_ok by reflexivity.
  rewrite n2b_N by lia. rewrite Nat2N.id. apply (reads_n p f P l H F Kl).
Qed.

Lemma reads_pass p :
  reads read_pass_by [CBool (match p with ByValue => false | _ => true end);
                      CBool (match p with ByMutRef => true | _ => false end)] p.
Proof.
  unfold read_pass_by. eapply readsr_cons; [apply reads_bool|].
  eapply readsr_last; [apply reads_bool|]. destruct p; apply readsr_ret.
Qed.

Lemma reads_param d p : param_ok d p -> reads (read_param d) (param_calls p) p.
Proof.
  intros (U & T & D). unfold read_param, param_calls. destruct p as [n t b x]; cbn [p_name p_ty p_pass p_default] in *.
  cbn [app]. eapply readsr_cons; [apply reads_str; auto|].
  eapply readsr_cons; [apply reads_type; auto|].
  match goal with |- readsr _ (?a :: ?b :: ?l) _ => change (a :: b :: l) with ([a; b] ++ l) end.
  eapply readsr_bind; [apply reads_pass|].
  eapply readsr_last; [apply reads_opt_default; auto|]. apply readsr_ret.
Qed.

Lemma reads_field d p : field_ok d p -> reads (read_field d) (field_calls p) p.
Proof.
  intros (U & O & T & D & C). unfold read_field, field_calls.
  destruct p as [n o t x c]; cbn [fd_name fd_orig fd_ty fd_default fd_doc] in *.
  cbn [app]. eapply readsr_cons; [apply reads_str; auto|].
  eapply readsr_bind; [apply reads_orig; auto|].
  eapply readsr_cons; [apply reads_type; auto|].
  eapply readsr_bind; [apply reads_opt_default; auto|].
  eapply readsr_last; [apply reads_doc; auto|]. apply readsr_ret.
Qed.

Lemma reads_variant d v : variant_ok d v -> reads (read_variant d) (variant_calls v) v.
Proof.
  intros (U & O & T & D & C). unfold read_variant, variant_calls.
  destruct v as [n o x fs c]; cbn [v_name v_orig v_discr v_fields v_doc] in *.
  cbn [app]. eapply readsr_cons; [apply reads_str; auto|].
  eapply readsr_bind; [apply reads_orig; auto|].
  eapply readsr_bind; [apply reads_opt_literal; auto|].
  eapply readsr_bind; [eapply reads_list; [apply reads_field|auto]|].
  eapply readsr_last; [apply reads_doc; auto|]. apply readsr_ret.
Qed.
Lemma reads_flat_variant v : flat_variant_ok v -> reads read_flat_variant (flat_variant_calls v) v.
Proof.
  intros (U & O & T & D & C). unfold read_flat_variant, flat_variant_calls.
  destruct v as [n o x fs c]; cbn [v_name v_orig v_discr v_fields v_doc] in *. subst.
  cbn [app]. eapply readsr_cons; [apply reads_str; auto|].
  eapply readsr_bind; [apply reads_orig; auto|].
  eapply readsr_last; [apply reads_doc; auto|]. apply readsr_ret.
Qed.

(** * Return types *)

Lemma type_id_head t b : type_id t = Some b ->
  exists v r, b = v :: r /\ tcode_of v <> Some TYPE_UNIT /\ tcode_of v <> Some TYPE_RESULT.
Proof.
  rewrite type_id_calls. intros E. apply exec_some in E as [_ ->].
  destruct t as [| | | | | | | | | | | | | | |? ? []| | | | | | | | |]; cbn [type_calls];
    rewrite cb_cons; cbn [call_bytes app]; do 2 eexists;
    (split; [reflexivity|]; split; discriminate).
Qed.

Lemma not_unit v {A} (x y z : A) :
  tcode_of v <> Some TYPE_UNIT -> tcode_of v <> Some TYPE_RESULT ->
  match tcode_of v with Some TYPE_UNIT => x | Some TYPE_RESULT => y | _ => z end = z.
Proof. destruct (tcode_of v) as [[]|]; congruence. Qed.
Lemma not_unit1 v {A} (x z : A) :
  tcode_of v <> Some TYPE_UNIT ->
  match tcode_of v with Some TYPE_UNIT => x | _ => z end = z.
Proof. destruct (tcode_of v) as [[]|]; congruence. Qed.

Lemma reads_opt_type d o :
  opt_all (ty_ok d) o -> reads (read_opt_type d) [CBuf (opt_type_id o)] o.
Proof.
  intros H. apply reads_buf. intros b r E. unfold read_opt_type.
  destruct o as [t|]; cbn [opt_all opt_type_id] in *.
  - destruct (type_id_head _ _ E) as (v & b' & -> & N & _).
    unfold rbind at 1. cbn [peek_u8 app]. rewrite not_unit1 by auto.
    change (v :: b' ++ r) with ((v :: b') ++ r).
    pose proof (reads_type t d H) as T. rewrite E in T.
    specialize (T ltac:(constructor; [exact I|constructor]) r).
    cbn [cb flat_map call_bytes] in T. rewrite app_nil_r in T.
    erewrite rbind_ok by exact T. reflexivity.
  - apply exec_some in E as [_ ->]. reflexivity.
Qed.

Lemma reads_return d ret' throws :
  opt_all (ty_ok d) ret' -> opt_all (ty_ok d) throws ->
  reads (read_return_type d) [CBuf (return_id ret' throws)] (ret', throws).
Proof.
  intros H1 H2. apply reads_buf. intros b r E. unfold read_return_type.
  destruct throws as [e|]; cbn [return_id] in E.
  - apply exec_some in E as [K ->]. inversion K as [|? ? _ K']; subst.
    rewrite cb_cons. cbn [call_bytes app].
    unfold rbind at 1. cbn [peek_u8]. rewrite tcode_of_byte. cbv beta iota.
    erewrite rbind_ok by reflexivity.
    assert (X : reads (a <- read_opt_type d ;; b <- read_opt_type d ;; ret (a, b))
                  [CBuf (opt_type_id ret'); CBuf (type_id e)] (ret', Some e)).
    { eapply readsr_cons; [apply reads_opt_type; auto|].
      eapply readsr_last; [apply (reads_opt_type d (Some e)); auto|]. apply readsr_ret. }
    apply X; auto.
  - destruct ret' as [t|]; cbn [opt_all opt_type_id] in *.
    + destruct (type_id_head _ _ E) as (v & b' & -> & N & N').
      unfold rbind at 1. cbn [peek_u8 app]. rewrite not_unit by auto.
      change (v :: b' ++ r) with ((v :: b') ++ r).
      pose proof (reads_type t d H1) as T. rewrite E in T.
      specialize (T ltac:(constructor; [exact I|constructor]) r).
      cbn [cb flat_map call_bytes] in T. rewrite app_nil_r in T.
      erewrite rbind_ok by exact T. reflexivity.
    + apply exec_some in E as [_ ->]. reflexivity.
Qed.

(** * Functions, methods and the checksum *)

Definition so_far (init r : bytes) : option Z :=
  Some (calc_checksum (firstn (length init - length r) init)).
Definition with_cs (ret' : option ty) (f : fn_meta) (c : option Z) : fn_meta :=
  Fn (f_mp f) (f_name f) (f_orig f) (f_async f) (f_inputs f) ret' (f_throws f) c (f_doc f).

Lemma reads_fn_tail d init f ret' :
  fn_ok d f -> opt_all (ty_ok d) ret' ->
  readsr (read_fn_tail d init (f_mp f) (f_name f)) (fn_tail_calls ret' f)
    (fun r => with_cs ret' f (so_far init r)).
Proof.
  intros (U1 & U2 & O & P & R & T & C) R'. unfold read_fn_tail, fn_tail_calls.
  eapply readsr_bind; [apply reads_orig; auto|]. cbn [app].
  eapply readsr_cons; [apply reads_bool|].
  eapply readsr_bind; [eapply reads_list; [apply reads_param|auto]|].
  eapply readsr_cons; [apply reads_return; auto|].
  eapply readsr_last; [apply reads_doc; auto|].
  intros _ r. reflexivity.
Qed.

Lemma readsr_map {A B} (p : rd A) (g : A -> B) cs X :
  readsr p cs X -> readsr (x <- p ;; ret (g x)) cs (fun r => g (X r)).
Proof. intros H K r. erewrite rbind_ok by (apply H; auto). reflexivity. Qed.

Lemma reads_method d init self f :
  utf8 self -> fn_ok d f ->
  readsr (read_metadata_method d init) (method_calls self f)
    (fun r => (self, with_cs (f_ret f) f (so_far init r))).
Proof.
  intros U F. unfold read_metadata_method, method_calls. cbn [app]. step_code.
  unfold read_method. pose proof F as (U1 & U2 & O & P & R & T & C).
  do 3 (eapply readsr_cons; [apply reads_str; auto|]).
  apply (readsr_map _ (fun f => (self, f))). apply reads_fn_tail; auto.
Qed.

Lemma readsr_buf {A} (p : rd A) cs X : readsr p cs X -> readsr p [CBuf (exec cs)] X.
Proof.
  intros H K r. inversion K as [|? ? Kc _]; subst.
  destruct (exec cs) as [b|] eqn:E; cbn [cok] in Kc; [|tauto].
  cbn [cb flat_map call_bytes]. rewrite app_nil_r. apply exec_some in E as [K' ->]. apply H; auto.
Qed.

Definition utrait_cs (u : utrait) (c1 c2 : option Z) : utrait :=
  match u with
  | UTDebug s f => UTDebug s (with_cs (f_ret f) f c1)
  | UTDisplay s f => UTDisplay s (with_cs (f_ret f) f c1)
  | UTHash s f => UTHash s (with_cs (f_ret f) f c1)
  | UTOrd s f => UTOrd s (with_cs (f_ret f) f c1)
  | UTEq s f s' f' => UTEq s (with_cs (f_ret f) f c1) s' (with_cs (f_ret f') f' c2)
  end.

Lemma reads_utrait d init u :
  utrait_ok d u -> Forall cok (utrait_calls u) -> forall r,
  exists c1 c2, read_utrait d init (cb (utrait_calls u) ++ r) = Ok (utrait_cs u c1 c2, r).
Proof.
  intros H K r. unfold read_utrait.
  destruct u as [s f|s f|s f s' f'|s f|s f]; cbn [utrait_ok utrait_calls] in *.
  3: {
    destruct H as (U & F & U' & F'). inversion K as [|? ? _ K']; subst.
    inversion K' as [|? ? K1 K2]; subst. clear K K'.
    rewrite cb_cons. cbn [call_bytes app]. erewrite rbind_ok by reflexivity. cbv beta iota.
    match goal with |- context [cb (?a :: ?l)] => change (a :: l) with ([a] ++ l) end.
    rewrite cb_app, <- app_assoc.
    pose proof (readsr_buf _ _ _ (reads_method d init s f U F)) as M1.
    pose proof (readsr_buf _ _ _ (reads_method d init s' f' U' F')) as M2.
    do 2 eexists.
    erewrite rbind_ok by (apply M1; constructor; auto).
    erewrite rbind_ok by (apply M2; auto). reflexivity. }
  all: destruct H as (U & F); inversion K as [|? ? _ K']; subst;
    rewrite cb_cons; cbn [call_bytes app]; erewrite rbind_ok by reflexivity; cbv beta iota;
    pose proof (readsr_buf _ _ _ (reads_method d init s f U F)) as M1;
    do 2 eexists; erewrite rbind_ok by (apply M1; auto); reflexivity.
  Unshelve. all: exact None.
Qed.
