From Verif Require Import Base Utf8.
Local Open Scope N_scope.

Lemma b2n_small n : n < 256 -> b2n (n2b n) = n.
Proof. intros. rewrite b2n_n2b. apply N.mod_small; lia. Qed.

Lemma n2b_eq b n : n = b2n b -> n2b n = b.
Proof. intros ->. apply n2b_b2n. Qed.

(** Base-64 digits. *)
Lemma dig2 c : exists q r, r < 64 /\ c = q * 64 + r /\ c / 0x40 = q /\ c mod 0x40 = r.
Proof.
  exists (c / 0x40), (c mod 0x40).
  pose proof (N.div_mod' c 0x40). pose proof (N.mod_lt c 0x40 ltac:(lia)).
  repeat split; lia.
Qed.

Lemma digs2 q r : r < 64 -> (q * 64 + r) / 0x40 = q /\ (q * 64 + r) mod 0x40 = r.
Proof.
  intros. split.
  - symmetry. apply (N.div_unique _ _ _ r); lia.
  - symmetry. apply (N.mod_unique _ _ q); lia.
Qed.

Lemma dig3 c : exists p q r, q < 64 /\ r < 64 /\ c = p * 4096 + q * 64 + r /\
  c / 0x1000 = p /\ (c / 0x40) mod 0x40 = q /\ c mod 0x40 = r.
Proof.
  destruct (dig2 c) as (q' & r & Hr & Hc & Hq & Hm).
  destruct (dig2 q') as (p & q & Hq2 & Hc2 & Hp & Hm2).
  exists p, q, r. repeat split; try lia; try congruence.
Qed.

Lemma digs3 p q r : q < 64 -> r < 64 ->
  (p * 4096 + q * 64 + r) / 0x1000 = p /\
  ((p * 4096 + q * 64 + r) / 0x40) mod 0x40 = q /\
  (p * 4096 + q * 64 + r) mod 0x40 = r.
Proof.
  intros Hq Hr.
  replace (p * 4096 + q * 64 + r) with ((p * 64 + q) * 64 + r) by lia.
  destruct (digs2 (p * 64 + q) r Hr) as [A B].
  destruct (digs2 p q Hq) as [C D].
  change 0x1000 with (0x40 * 0x40). rewrite <- N.div_div by lia.
  rewrite A, B, C, D. auto.
Qed.

Lemma dig4 c : exists o p q r, p < 64 /\ q < 64 /\ r < 64 /\
  c = o * 262144 + p * 4096 + q * 64 + r /\
  c / 0x40000 = o /\ (c / 0x1000) mod 0x40 = p /\ (c / 0x40) mod 0x40 = q /\ c mod 0x40 = r.
Proof.
  destruct (dig3 c) as (p' & q & r & Hq & Hr & Hc & H1 & H2 & H3).
  destruct (dig2 p') as (o & p & Hp & Hc2 & H4 & H5).
  exists o, p, q, r. repeat split; try lia; try congruence.
Qed.

Lemma digs4 o p q r : p < 64 -> q < 64 -> r < 64 ->
  let c := o * 262144 + p * 4096 + q * 64 + r in
  c / 0x40000 = o /\ (c / 0x1000) mod 0x40 = p /\ (c / 0x40) mod 0x40 = q /\ c mod 0x40 = r.
Proof.
  intros Hp Hq Hr c.
  replace c with ((o * 64 + p) * 4096 + q * 64 + r) by (unfold c; lia).
  destruct (digs3 (o * 64 + p) q r Hq Hr) as (A & B & C).
  destruct (digs2 o p Hp) as [D E].
  change 0x40000 with (0x1000 * 0x40). rewrite <- N.div_div by lia.
  rewrite A, B, C, D, E. auto.
Qed.

(** Boolean comparisons. *)
Ltac tt b := let H := fresh in assert (b = true) as H by lia; rewrite H; clear H.
Ltac ff b := let H := fresh in assert (b = false) as H by lia; rewrite H; clear H.

Lemma utf8_dec1_enc1 c r : scalar c -> utf8_dec1 (utf8_enc1 c ++ r) = Some (c, r).
Proof.
  intros Hc. unfold scalar in Hc. unfold utf8_enc1.
  destruct (N.ltb_spec c 0x80).
  { cbn [app utf8_dec1]. rewrite b2n_small by lia. tt (c <? 128). reflexivity. }
  destruct (N.ltb_spec c 0x800).
  { destruct (dig2 c) as (q & d & Hd & E & -> & ->).
    cbn [app utf8_dec1]. unfold cont. rewrite !b2n_small by lia.
    ff (0xC0 + q <? 0x80). tt (0xC2 <=? 0xC0 + q). tt (0xC0 + q <? 0xE0).
    tt (0x80 <=? 0x80 + d). tt (0x80 + d <? 0xC0). cbn [andb].
    f_equal. f_equal. lia. }
  destruct (N.ltb_spec c 0x10000).
  { destruct (dig3 c) as (p & q & d & Hq & Hd & E & -> & -> & ->).
    cbn [app utf8_dec1]. unfold cont. rewrite !b2n_small by lia.
    ff (0xE0 + p <? 0x80). ff (0xE0 + p <? 0xE0). tt (0xE0 <=? 0xE0 + p). tt (0xE0 + p <? 0xF0).
    rewrite andb_false_r. cbn [andb].
    tt (0x80 <=? 0x80 + d). tt (0x80 + d <? 0xC0).
    tt (0x80 <=? 0x80 + q). tt (0x80 + q <? 0xC0). cbn [andb].
    replace (if 0xE0 + p =? 0xE0 then (0xA0 <=? 0x80 + q) && true
             else if 0xE0 + p =? 0xED then 0x80 + q <? 0xA0 else true) with true.
    - cbn [andb]. f_equal. f_equal. lia.
    - destruct (N.eqb_spec (0xE0 + p) 0xE0).
      + tt (0xA0 <=? 0x80 + q). reflexivity.
      + destruct (N.eqb_spec (0xE0 + p) 0xED); [|reflexivity]. symmetry.
        apply N.ltb_lt. lia. }
  { destruct (dig4 c) as (o & p & q & d & Hp & Hq & Hd & E & -> & -> & -> & ->).
    cbn [app utf8_dec1]. unfold cont. rewrite !b2n_small by lia.
    ff (0xF0 + o <? 0x80). ff (0xF0 + o <? 0xE0). ff (0xF0 + o <? 0xF0).
    tt (0xF0 <=? 0xF0 + o). tt (0xF0 + o <? 0xF5).
    rewrite !andb_false_r. cbn [andb].
    tt (0x80 <=? 0x80 + d). tt (0x80 + d <? 0xC0).
    tt (0x80 <=? 0x80 + q). tt (0x80 + q <? 0xC0).
    tt (0x80 <=? 0x80 + p). tt (0x80 + p <? 0xC0). cbn [andb].
    replace (if 0xF0 + o =? 0xF0 then (0x90 <=? 0x80 + p) && true
             else if 0xF0 + o =? 0xF4 then 0x80 + p <? 0x90 else true) with true.
    - cbn [andb]. f_equal. f_equal. lia.
    - destruct (N.eqb_spec (0xF0 + o) 0xF0).
      + tt (0x90 <=? 0x80 + p). reflexivity.
      + destruct (N.eqb_spec (0xF0 + o) 0xF4); [|reflexivity]. symmetry.
        apply N.ltb_lt. lia. }
Qed.

Lemma cont_true b : cont b = true -> 0x80 <= b2n b < 0xC0.
Proof. unfold cont. lia. Qed.

Lemma utf8_dec1_sound bs c r :
  utf8_dec1 bs = Some (c, r) -> scalar c /\ bs = utf8_enc1 c ++ r.
Proof.
  unfold utf8_dec1.
  destruct bs as [|b0 r0]; [discriminate|].
  pose proof (b2n_lt b0) as B0.
  destruct (N.ltb_spec (b2n b0) 0x80).
  { intros [= <- <-]. unfold scalar, utf8_enc1. split; [lia|].
    tt (b2n b0 <? 0x80). cbn. now rewrite n2b_b2n. }
  destruct ((0xC2 <=? b2n b0) && (b2n b0 <? 0xE0)) eqn:E2.
  { destruct r0 as [|b1 r1]; [discriminate|].
    destruct (cont b1) eqn:C1; [|discriminate]. apply cont_true in C1.
    intros [= <- <-].
    remember (b2n b0 - 0xC0) as q eqn:Eq. remember (b2n b1 - 0x80) as d eqn:Ed.
    assert (d < 64) by lia.
    unfold utf8_enc1.
    split; [unfold scalar; lia|].
    ff (q * 64 + d <? 0x80). tt (q * 64 + d <? 0x800).
    rewrite (proj1 (digs2 q d ltac:(lia))), (proj2 (digs2 q d ltac:(lia))).
    cbn [app]. rewrite (n2b_eq b0), (n2b_eq b1) by lia. reflexivity. }
  clear E2.
  destruct ((0xE0 <=? b2n b0) && (b2n b0 <? 0xF0)) eqn:E3.
  { destruct r0 as [|b1 [|b2 r2]]; [discriminate..|].
    destruct (cont b2) eqn:C2; [|rewrite andb_false_r; discriminate]. apply cont_true in C2.
    rewrite andb_true_r.
    destruct (if b2n b0 =? 0xE0 then _ else _) eqn:C1; [|discriminate].
    intros [= <- <-].
    assert (0x80 <= b2n b1 < 0xC0 /\ (b2n b0 = 0xE0 -> 0xA0 <= b2n b1)
            /\ (b2n b0 = 0xED -> b2n b1 < 0xA0)) as (C1a & C1b & C1c).
    { unfold cont in C1. destruct (N.eqb_spec (b2n b0) 0xE0); [lia|].
      destruct (N.eqb_spec (b2n b0) 0xED); lia. }
    clear C1.
    remember (b2n b0 - 0xE0) as p eqn:Ep. remember (b2n b1 - 0x80) as q eqn:Eq. remember (b2n b2 - 0x80) as d eqn:Ed.
    assert (q < 64) as Hq64 by lia. assert (d < 64) as Hd64 by lia.
    split; [unfold scalar; lia|]. unfold utf8_enc1.
    change (p * 0x1000 + q * 0x40 + d) with (p * 4096 + q * 64 + d).
    ff (p * 4096 + q * 64 + d <? 0x80). ff (p * 4096 + q * 64 + d <? 0x800).
    tt (p * 4096 + q * 64 + d <? 0x10000).
    pose proof (digs3 p q d Hq64 Hd64) as D. rewrite (proj1 D), (proj1 (proj2 D)), (proj2 (proj2 D)).
    clear D.
    cbn [app]. rewrite (n2b_eq b0), (n2b_eq b1), (n2b_eq b2) by lia. reflexivity. }
  clear E3.
  destruct ((0xF0 <=? b2n b0) && (b2n b0 <? 0xF5)) eqn:E4; [|discriminate].
  { destruct r0 as [|b1 [|b2 [|b3 r3]]]; [discriminate..|].
    destruct (cont b3) eqn:C3; [|rewrite andb_false_r; discriminate]. apply cont_true in C3.
    rewrite andb_true_r.
    destruct (cont b2) eqn:C2; [|rewrite andb_false_r; discriminate]. apply cont_true in C2.
    rewrite andb_true_r.
    destruct (if b2n b0 =? 0xF0 then _ else _) eqn:C1; [|discriminate].
    intros [= <- <-].
    assert (0x80 <= b2n b1 < 0xC0 /\ (b2n b0 = 0xF0 -> 0x90 <= b2n b1)
            /\ (b2n b0 = 0xF4 -> b2n b1 < 0x90)) as (C1a & C1b & C1c).
    { unfold cont in C1. destruct (N.eqb_spec (b2n b0) 0xF0); [lia|].
      destruct (N.eqb_spec (b2n b0) 0xF4); lia. }
    clear C1.
    remember (b2n b0 - 0xF0) as o eqn:Eo. remember (b2n b1 - 0x80) as p eqn:Ep.
    remember (b2n b2 - 0x80) as q eqn:Eq. remember (b2n b3 - 0x80) as d eqn:Ed.
    assert (p < 64) as Hp64 by lia. assert (q < 64) as Hq64 by lia. assert (d < 64) as Hd64 by lia.
    split; [unfold scalar; lia|]. unfold utf8_enc1.
    change (o * 0x40000 + p * 0x1000 + q * 0x40 + d) with (o * 262144 + p * 4096 + q * 64 + d).
    ff (o * 262144 + p * 4096 + q * 64 + d <? 0x80).
    ff (o * 262144 + p * 4096 + q * 64 + d <? 0x800).
    ff (o * 262144 + p * 4096 + q * 64 + d <? 0x10000).
    pose proof (digs4 o p q d Hp64 Hq64 Hd64) as D. cbv zeta in D.
    rewrite (proj1 D), (proj1 (proj2 D)), (proj1 (proj2 (proj2 D))), (proj2 (proj2 (proj2 D))).
    clear D.
    cbn [app]. rewrite (n2b_eq b0), (n2b_eq b1), (n2b_eq b2), (n2b_eq b3) by lia. reflexivity. }
Qed.

Lemma utf8_enc1_nonempty c : (1 <= length (utf8_enc1 c))%nat.
Proof. unfold utf8_enc1. repeat destruct (_ <? _); cbn; lia. Qed.

Lemma utf8_dec_fuel_enc cs fuel :
  Forall scalar cs -> (length (utf8_enc cs) <= fuel)%nat ->
  utf8_dec_fuel fuel (utf8_enc cs) = Some cs.
Proof.
  revert fuel; induction cs as [|c cs IH]; intros fuel Hs Hf.
  - destruct fuel; reflexivity.
  - inversion Hs; subst. cbn [utf8_enc flat_map] in *. fold (utf8_enc cs) in *.
    rewrite app_length in Hf. pose proof (utf8_enc1_nonempty c).
    destruct fuel; [lia|].
    assert (exists b t, utf8_enc1 c ++ utf8_enc cs = b :: t) as (b & t & E).
    { destruct (utf8_enc1 c); cbn in *; [lia|eauto]. }
    cbn [utf8_dec_fuel]. rewrite E. rewrite <- E.
    rewrite utf8_dec1_enc1 by assumption.
    rewrite IH; auto. lia.
Qed.

Lemma utf8_dec_enc cs : Forall scalar cs -> utf8_dec (utf8_enc cs) = Some cs.
Proof. intros. apply utf8_dec_fuel_enc; auto. Qed.

Lemma utf8_dec_fuel_sound fuel bs cs :
  utf8_dec_fuel fuel bs = Some cs -> Forall scalar cs /\ bs = utf8_enc cs.
Proof.
  revert bs cs; induction fuel; intros bs cs H.
  - destruct bs; cbn in H; [|discriminate]. injection H as <-. split; [constructor|reflexivity].
  - destruct bs as [|b t]; cbn [utf8_dec_fuel] in H.
    + injection H as <-. split; [constructor|reflexivity].
    + destruct (utf8_dec1 (b :: t)) as [[c r]|] eqn:E; [|discriminate].
      destruct (utf8_dec_fuel fuel r) as [cs'|] eqn:E'; [|discriminate].
      injection H as <-.
      apply utf8_dec1_sound in E as [Hc Hb].
      apply IHfuel in E' as [Hcs ->].
      split; [now constructor|]. exact Hb.
Qed.

Lemma utf8_dec_sound bs cs :
  utf8_dec bs = Some cs -> Forall scalar cs /\ bs = utf8_enc cs.
Proof. apply utf8_dec_fuel_sound. Qed.

(** [from_utf8] accepts exactly the encodings of scalar value sequences. *)
Lemma utf8_valid_iff bs :
  utf8_valid bs = true <-> exists cs, Forall scalar cs /\ bs = utf8_enc cs.
Proof.
  unfold utf8_valid. split.
  - destruct (utf8_dec bs) eqn:E; [|discriminate]. intros _.
    exists l. now apply utf8_dec_sound.
  - intros (cs & H & ->). now rewrite utf8_dec_enc.
Qed.

Lemma utf8_enc_valid cs : Forall scalar cs -> utf8_valid (utf8_enc cs) = true.
Proof. intros. apply utf8_valid_iff. eauto. Qed.

Lemma utf8_enc_inj a b :
  Forall scalar a -> Forall scalar b -> utf8_enc a = utf8_enc b -> a = b.
Proof.
  intros Ha Hb E. apply utf8_dec_enc in Ha, Hb. rewrite E in Ha. congruence.
Qed.
