(** What does not survive the way to Swift and back. *)
From Verif Require Import Base Utf8 Wire_Model Wire_Spec Wire_Proofs Fgn_Spec Fgn_Proofs
  Swf_Model Swf_Spec Swf_Dbl Swf_Basics Swf_Read.
Local Open Scope Z_scope.

Lemma flat_tag E d n i m bs k r :
  defs E n = Some (DFlat k r) -> swrite E (S d) (TNamed n) (SFlat i m) = Ok bs ->
  (i < k)%nat /\ Z.of_nat i < i32_max /\ bs = enc 4 (Z.of_nat i + 1).
Proof.
  intros D H. cbn [swrite] in H. rewrite D in H.
  destruct (Nat.ltb_spec i k); [|discriminate H].
  destruct (Z.ltb_spec (Z.of_nat i) i32_max); [|discriminate H]. injection H as <-. auto.
Qed.

(** 1.9 seconds come back as 1.899999999. *)
Lemma fraction W E d rest :
  exists bs bs' s, write E TDuration (VDur 1900000000) = Ok bs /\
    sread W E (S d) TDuration (bs ++ rest) = Ok (s, rest) /\
    swrite E (S d) TDuration s = Ok bs' /\
    read E (S d) TDuration (bs' ++ rest) = Ok (VDur 1899999999, rest).
Proof.
  eexists. eexists. eexists. split; [vm_compute; reflexivity|].
  split; [vm_compute; reflexivity|]. split; [vm_compute; reflexivity|vm_compute; reflexivity].
Qed.

(** 2^63 + 2048 seconds arrive, but cannot be sent back. *)
Lemma long_duration W E d rest :
  exists bs s, write E TDuration (VDur (9223372036854777856 * 1000000000)) = Ok bs /\
    sread W E (S d) TDuration (bs ++ rest) = Ok (s, rest) /\
    swrite E (S d) TDuration s = Panic.
Proof.
  eexists. eexists. split; [vm_compute; reflexivity|].
  split; [vm_compute; reflexivity|vm_compute; reflexivity].
Qed.

Lemma put_len_fits n : Z.of_nat n <= i32_max -> put_len n = Ok (enc 4 (Z.of_nat n)).
Proof. intros H. unfold put_len. destruct (Z.leb_spec (Z.of_nat n) i32_max); [reflexivity|lia]. Qed.

(** Strings that Swift takes for equal. *)
Lemma equivalent_keys W E d a b rest : utf8_valid a = true -> utf8_valid b = true ->
  Z.of_nat (length a) <= i32_max -> Z.of_nat (length b) <= i32_max -> a <> b ->
  canon W a = canon W b ->
  let t := TMap TString TBool in
  let v := VMap [(VStr a, VBool true); (VStr b, VBool false)] in
  has_type E t v /\
  exists bs, write E t v = Ok bs /\
    sread W E (S (S d)) t (bs ++ rest) = Ok (SDict [(SStr a, SBool false)], rest).
Proof.
  intros Va Vb La Lb N C t v. subst t v. split.
  - apply ht_map; cbn [map fst].
    + repeat constructor; assumption.
    + repeat constructor.
    + constructor; [intros [[= X]|[]]; congruence|repeat constructor; intros []].
  - assert (Wa : put_len (length a) = Ok (enc 4 (Z.of_nat (length a)))) by (apply put_len_fits; assumption).
    assert (Wb : put_len (length b) = Ok (enc 4 (Z.of_nat (length b)))) by (apply put_len_fits; assumption).
    eexists. split.
    { cbn [write map fst snd cat_res]. unfold write_str. rewrite Wa, Wb. cbn [bind length].
      change (put_len 2) with (Ok (enc 4 2)). cbn [bind]. reflexivity. }
    rewrite <- app_assoc. cbn [sread].
    change 2 with (Z.of_nat 2). rewrite slen_enc by (unfold i32_max; lia). cbn [bind repeat_read].
    unfold read_pair at 1. rewrite <- !app_assoc. cbn [sread].
    assert (RS : forall m r, utf8_valid m = true -> Z.of_nat (length m) <= i32_max ->
              sread_str W (enc 4 (Z.of_nat (length m)) ++ m ++ r) = Ok (m, r)).
    { intros m r V L. rewrite app_assoc. apply (sread_str_enc W); [exact V|]. now apply put_len_fits. }
    rewrite RS by assumption. cbn [bind]. rewrite get_checked_enc. cbn [bind].
    unfold read_pair. cbn [sread].
    rewrite RS by assumption. cbn [bind]. rewrite get_checked_enc. cbn [bind app].
    rewrite !dec_s_1 by lia.
    unfold dict_of. cbn [fold_left fst snd dict_set].
    rewrite (key_eq W (SStr a) (SStr b)) by (cbn [norm]; now rewrite C). reflexivity.
Qed.

(** Half a second before 1970 arrives as half a second after. *)
Definition half_before : Z := - 978307200 * one - 2 ^ 1073.
Lemma half_before_date : double half_before /\ 2 * since1970 half_before = - one.
Proof.
  split; [|vm_compute; reflexivity].
  exists (-1956614401), 1073. split; [lia|]. split; [lia|]. vm_compute. reflexivity.
Qed.
Lemma before_1970 E d rest :
  exists bs, swrite E (S d) TTimestamp (SDate half_before) = Ok bs /\
    read E (S d) TTimestamp (bs ++ rest) = Ok (VTime 500000000, rest).
Proof. eexists. split; [vm_compute; reflexivity|vm_compute; reflexivity]. Qed.

(** Two keys a nanosecond apart arrive as one. *)
Lemma close_keys W E :
  let t := TMap TTimestamp TBool in
  let v := VMap [(VTime 1700000000000000000, VBool true); (VTime 1700000000000000001, VBool false)] in
  has_type E t v /\
  exists bs, write E t v = Ok bs /\
    exists k, forall d rest, sread W E (S (S d)) t (bs ++ rest) = Ok (SDict [(k, SBool false)], rest).
Proof.
  intros t v. subst t v. split.
  - apply ht_map; cbn [map fst].
    + repeat constructor; vm_compute; congruence.
    + repeat constructor.
    + constructor; [intros [X|[]]; discriminate X|repeat constructor; intros []].
  - eexists. split; [vm_compute; reflexivity|]. eexists. intros d rest. vm_compute. reflexivity.
Qed.

(** A negative length is not an error but a trap. *)
Lemma negative_length W E d n rest : - 2 ^ 31 <= n < 0 ->
  sread W E (S d) TString (enc 4 n ++ rest) = Panic /\
  read E (S d) TString (enc 4 n ++ rest) = Err.
Proof.
  intros B. cbn [sread read]. unfold sread_str, slen, read_str, get_len.
  rewrite get_checked_enc. cbn [bind]. rewrite dec_s_enc by (rewrite ?half_4; lia).
  destruct (Z.ltb_spec n 0); [|lia]. cbn [bind]. auto.
Qed.

(** Swift takes any byte but 0 for [true]. *)
Lemma lax_bool W E d b rest : - 128 <= b < 128 -> b <> 0 -> b <> 1 ->
  sread W E (S d) TBool (enc 1 b ++ rest) = Ok (SBool true, rest) /\
  read E (S d) TBool (enc 1 b ++ rest) = Err.
Proof.
  intros B N0 N1. cbn [sread read]. rewrite get_checked_enc. cbn [bind].
  rewrite dec_s_enc by (rewrite ?half_1; lia).
  destruct (Z.eqb_spec b 0); [lia|]. destruct (Z.eqb_spec b 1); [lia|]. auto.
Qed.

(** Bytes left over. *)
Lemma left_over W E v t s bs b rest d :
  swift_reads W E t (vdepth v) bs s -> (vdepth v <= d)%nat ->
  slift W E d t bs = Ok s /\ slift W E d t (bs ++ b :: rest) = Err.
Proof.
  intros R D. unfold slift. split.
  - rewrite <- (app_nil_r bs). rewrite (R d [] D). reflexivity.
  - rewrite (R d (b :: rest) D). reflexivity.
Qed.
