(** What Swift reads from the bytes Rust writes. *)
From Verif Require Import Base Utf8 Wire_Model Wire_Spec Wire_Proofs Fgn_Spec Fgn_Proofs Fgn_Proofs4
  Swf_Model Swf_Spec Swf_Dbl Swf_Time Swf_Basics.
Local Open Scope Z_scope.

(** What the converters compute. *)
Definition computed : clock := {|
  m_time := fun t x => x = date_read (t_secs t) (t_nanos t);
  m_dur := fun t x => 0 <= t / 1000000000 < modulus 8 /\
                      x = dur_read (t / 1000000000) (t mod 1000000000) |}.

Lemma apart_sub W v u : apart W v -> incl (subvals u) (subvals v) -> apart W u.
Proof. intros H I x Hx. apply H, I, Hx. Qed.
Lemma apart_list W vs u v :
  subvals u = u :: flat_map subvals vs -> apart W u -> In v vs -> apart W v.
Proof.
  intros X H Hv. eapply apart_sub; [exact H|]. intros w Hw. rewrite X. right.
  eapply in_flat_map_sub; eauto.
Qed.
Lemma apart_self W v : apart W v ->
  match v with
  | VMap kvs => NoDup (map (canonical (canon W)) (map fst kvs))
  | VSet vs => NoDup (map (canonical (canon W)) vs)
  | _ => True
  end.
Proof. intros H. apply H. destruct v; cbn; auto. Qed.

Section Total.
  Variable W : swift.
  Variable E : env.

  Lemma list_counterpart t vs :
    Forall (fun v => forall t, has_type E t v -> exists s, same computed E t v s) vs ->
    Forall (has_type E t) vs -> exists ss, Forall2 (same computed E t) vs ss.
  Proof.
    induction 1 as [|v vs H _ IH]; intros HT; [exists []; constructor|].
    inversion HT; subst. destruct (H t ltac:(assumption)) as [s Hs].
    destruct (IH ltac:(assumption)) as [ss Hss]. exists (s :: ss). now constructor.
  Qed.

  Lemma fields_counterpart vs :
    Forall (fun v => forall t, has_type E t v -> exists s, same computed E t v s) vs ->
    forall ts, Forall2 (has_type E) ts vs -> exists ss, sames computed E ts vs ss.
  Proof.
    induction 1 as [|v vs H _ IH]; intros ts HT; inversion HT; subst; [exists []; constructor|].
    destruct (H _ ltac:(eassumption)) as [s Hs].
    destruct (IH _ ltac:(eassumption)) as [ss Hss]. exists (s :: ss). now constructor.
  Qed.

  Lemma counterpart v : forall t, has_type E t v -> exists s, same computed E t v s.
  Proof.
    induction v using val_ind'; intros ty HT; inversion HT; subst;
      try (eexists; constructor; fail);
      try (eexists; econstructor; eassumption).
    - eexists. constructor. reflexivity.
    - eexists. constructor. split; [assumption|reflexivity].
    - destruct (IHv t ltac:(assumption)) as [s Hs]. exists (SSome s). now constructor.
    - destruct (IHv t ltac:(assumption)) as [s Hs]. exists s. now constructor.
    - destruct (is_byte t) eqn:U.
      + apply is_byte_true in U as ->.
        match goal with X : Forall (has_type E _) vs |- _ => clear - X; rename X into Y end.
        assert (exists bs, vs = map (fun b => VInt (Z.of_N (b2n b))) bs) as [bs ->].
        { induction Y as [|v vs Hv _ [bs ->]]; [now exists []|].
          inversion Hv; subst. exists (n2b (Z.to_N z) :: bs). cbn [map].
          match goal with X : 0 <= z < _ |- _ => cbn [wbytes] in X; change (modulus 1) with 256 in X end.
          rewrite b2n_n2b, N.mod_small by lia. do 2 f_equal. lia. }
        eexists. constructor.
      + apply is_byte_false in U. destruct (list_counterpart t vs H ltac:(assumption)) as [ss Hss].
        exists (SArr ss). now apply s_seq.
    - match goal with X : Forall (fun p => has_type E tk (fst p)) kvs |- _ => rename X into Tk end.
      match goal with X : Forall (fun p => has_type E tv (snd p)) kvs |- _ => rename X into Tv end.
      assert (exists skvs, Forall2 (fun p q => same computed E tk (fst p) (fst q)) kvs skvs /\
                Forall2 (fun p q => same computed E tv (snd p) (snd q)) kvs skvs) as (skvs & F1 & F2).
      { clear HT. match goal with X : NoDup _ |- _ => clear X end.
        induction H as [|[k v] kvs [Hk Hv] _ IH]; [exists []; split; constructor|].
        inversion Tk; inversion Tv; subst. cbn [fst snd] in *.
        destruct (Hk tk ltac:(assumption)) as [f Hf]. destruct (Hv tv ltac:(assumption)) as [g Hg].
        destruct IH as (skvs & F1 & F2); [assumption..|]. exists ((f, g) :: skvs). split; now constructor. }
      exists (SDict skvs). now constructor.
    - destruct (list_counterpart t vs H ltac:(assumption)) as [ss Hss]. exists (SSet ss). now constructor.
    - destruct (fields_counterpart vs H _ ltac:(eassumption)) as [ss Hss].
      eexists. eapply s_rec; eassumption.
    - destruct (fields_counterpart vs H _ ltac:(eassumption)) as [ss Hss].
      eexists. eapply s_enum; eassumption.
    - destruct (IHv b ltac:(assumption)) as [s Hs]. exists s. eapply s_custom; eassumption.
  Qed.
End Total.

(** * Reading *)

Section Reads.
  Variable W : swift.
  Variable E : env.

  Definition goal_to (v : val) : Prop := forall t s bs rest d,
    same computed E t v s -> has_type E t v -> no_lost_instant v -> apart W v -> plain_keys E t ->
    write E t v = Ok bs -> (vdepth v <= d)%nat ->
    sread W E d t (bs ++ rest) = Ok (s, rest).

  Lemma sread_fields d ts vs ss :
    Forall goal_to vs -> sames computed E ts vs ss -> Forall2 (has_type E) ts vs ->
    Forall (plain_keys E) ts ->
    (forall v, In v vs -> no_lost_instant v /\ apart W v /\ (vdepth v <= d)%nat) ->
    forall bs rest, write_fields E ts vs = Ok bs ->
    read_all (sread W E d) ts (bs ++ rest) = Ok (ss, rest).
  Proof.
    intros HG HS. revert HG. induction HS as [|t ts v vs f fs HS1 HS IH];
      intros HG HT HP HI bs rest HW; cbn [write_fields read_all] in *.
    - injection HW as <-. reflexivity.
    - apply bind_ok in HW as (a & Ha & HW). apply bind_ok in HW as (b & Hb & [= <-]).
      inversion HG as [|? ? G1 G2]; inversion HT as [|? ? ? ? T1 T2]; inversion HP; subst.
      destruct (HI v (or_introl eq_refl)) as (N & A & D).
      rewrite <- app_assoc, (G1 t f a (b ++ rest) d) by assumption. cbn [bind].
      rewrite IH by (try assumption; intros u Hu; apply HI; right; exact Hu). reflexivity.
  Qed.

  Lemma sread_str_enc m rest hd : utf8_valid m = true -> put_len (length m) = Ok hd ->
    sread_str W ((hd ++ m) ++ rest) = Ok (m, rest).
  Proof.
    intros V Hh. apply put_len_ok in Hh as [-> HL]. unfold sread_str.
    rewrite <- app_assoc, slen_enc by assumption. cbn [bind].
    rewrite get_checked_app by reflexivity. cbn [bind]. now rewrite V.
  Qed.

  Lemma dec_s_1 z : 0 <= z < 2 -> dec_s (enc 1 z) = z.
  Proof. intros H. apply dec_s_enc; [lia|]. rewrite half_1. lia. Qed.

  Theorem sread_write v : goal_to v.
  Proof.
    unfold goal_to.
    induction v using val_ind'; intros ty f bs rest [|d] HS HT HN HA HP HW HD; cbn [vdepth] in HD;
      try lia; inversion HS; subst; clear HS; cbn [sread].
    - (* int *)
      cbn in HW. injection HW as <-. destruct sg; inversion HT; subst; rewrite get_checked_enc; cbn [bind].
      + rewrite dec_s_enc; [reflexivity|apply wbytes_pos|assumption].
      + rewrite dec_u_enc by assumption. reflexivity.
    - inversion HT; subst. cbn in HW. injection HW as <-. rewrite get_checked_enc. cbn [bind].
      rewrite dec_u_enc by assumption. reflexivity.
    - cbn in HW. injection HW as <-. rewrite get_checked_enc. cbn [bind].
      rewrite dec_s_1 by (destruct b; lia). destruct b; reflexivity.
    - inversion HT; subst. cbn [write] in HW. unfold write_str in HW. apply bind_ok in HW as (hd & Hh & [= <-]).
      rewrite (sread_str_enc s rest hd) by assumption. reflexivity.
    - cbn [write] in HW. unfold write_time in HW.
      destruct (Z.leb_spec (Z.abs t / nanos_per_sec) i64_max) as [Lm|]; [|discriminate].
      injection HW as <-. rewrite <- app_assoc, get_checked_enc. cbn [bind]. rewrite get_checked_enc. cbn [bind].
      unfold nanos_per_sec in *.
      assert (0 <= Z.abs t / 1000000000) by (apply Z.div_pos; lia).
      pose proof (Z.mod_pos_bound (Z.abs t) 1000000000 ltac:(lia)).
      rewrite dec_s_enc; [|lia|unfold i64_max in Lm; rewrite half_8; destruct (0 <=? t); lia].
      rewrite dec_u_enc by (rewrite modulus_4; lia).
      fold (t_secs t). fold (t_nanos t). match goal with X : m_time computed t x |- _ => rewrite X end. reflexivity.
    - cbn [write] in HW. unfold write_dur in HW. injection HW as <-. inversion HT; subst.
      rewrite <- app_assoc, get_checked_enc. cbn [bind]. rewrite get_checked_enc. cbn [bind].
      unfold nanos_per_sec.
      pose proof (Z.mod_pos_bound t 1000000000 ltac:(lia)).
      rewrite !dec_u_enc by (rewrite ?modulus_4; lia || assumption).
      match goal with X : m_dur computed t x |- _ => destruct X as [_ X]; rewrite X end. reflexivity.
    - cbn in HW. injection HW as <-. rewrite get_checked_enc. cbn [bind].
      rewrite dec_s_1 by lia. reflexivity.
    - cbn [write] in HW. apply bind_ok in HW as (b & Hb & [= <-]). inversion HT; subst.
      rewrite <- app_assoc, get_checked_enc. cbn [bind]. rewrite dec_s_1 by lia. cbn [Z.eqb Pos.eqb].
      rewrite (IHv t s b rest d); auto; [|..|lia].
      + eapply no_lost_sub; [exact HN|]. cbn. intros u Hu; now right.
      + eapply apart_sub; [exact HA|]. cbn. intros u Hu; now right.
      + eapply plains_sub; [|exact HP]. intros; now constructor.
    - inversion HT; subst. cbn [write] in HW.
      apply (IHv t f bs rest d); auto; [|..|lia].
      + eapply no_lost_sub; [exact HN|]. cbn. intros u Hu; now right.
      + eapply apart_sub; [exact HA|]. cbn. intros u Hu; now right.
      + eapply plains_sub; [|exact HP]. intros; now constructor.
    - (* bytes *)
      cbn [write] in HW. rewrite map_length in HW. apply bind_ok in HW as (hd & Hh & HW).
      change (map (fun b => VInt (Z.of_N (b2n b))) bs0) with (map byte_val bs0) in HW.
      rewrite write_bytes in HW. cbn [bind] in HW. injection HW as <-.
      apply put_len_ok in Hh as [-> HL]. rewrite <- app_assoc, slen_enc by assumption. cbn [bind is_byte].
      now rewrite get_checked_app by reflexivity.
    - (* seq *)
      cbn [write] in HW. apply bind_ok in HW as (hd & Hh & HW). apply bind_ok in HW as (b & Hb & [= <-]).
      apply put_len_ok in Hh as [-> HL]. rewrite <- app_assoc, slen_enc by assumption. cbn [bind].
      match goal with X : _ <> TInt false W8 |- _ => apply is_byte_false in X; rewrite X end.
      inversion HT; subst.
      match goal with X : Forall (has_type E t) vs |- _ => rename X into HTs end.
      match goal with X : Forall2 (same computed E t) vs ss |- _ => rename X into HSs end.
      rewrite (repeat_read_cat2 _ (write E t) vs ss); [reflexivity| |exact Hb].
      refine (Forall2_impl2 _ _ _ _ _ (Forall2_and_l _ _ _ _ H (Forall2_and_l _ _ _ _ HTs
                (Forall2_and_l _ _ _ _ (Forall_in vs) HSs)))).
      cbn beta. intros v g (G & T & I & S1) b' r Hb'. apply (G t g b' r d); auto.
      + apply (no_lost_list vs (VSeq vs)); auto.
      + apply (apart_list W vs (VSeq vs)); auto.
      + eapply plains_sub; [|exact HP]. intros; now constructor.
      + assert (vdepth v <= list_max (map vdepth vs))%nat by (apply list_max_in, in_map, I). lia.
    - (* map *)
      cbn [write] in HW. apply bind_ok in HW as (hd & Hh & HW). apply bind_ok in HW as (b & Hb & [= <-]).
      apply put_len_ok in Hh as [-> HL]. rewrite <- app_assoc, slen_enc by assumption. cbn [bind].
      inversion HT; subst.
      match goal with X : Forall (fun p => has_type E tk (fst p)) kvs |- _ => rename X into HTk end.
      match goal with X : Forall (fun p => has_type E tv (snd p)) kvs |- _ => rename X into HTv end.
      match goal with X : Forall2 (fun p q => same computed E tk (fst p) (fst q)) kvs skvs |- _ => rename X into HSk end.
      match goal with X : Forall2 (fun p q => same computed E tv (snd p) (snd q)) kvs skvs |- _ => rename X into HSv end.
      erewrite (repeat_read_cat2 (read_pair (sread W E d tk) (sread W E d tv)) _ kvs skvs); [|clear Hb|exact Hb].
      { cbn [bind]. rewrite dict_of_nodup; [reflexivity|].
        refine (norm_nodup W computed E tk _ _ _ (Forall2_fst (same computed E tk) kvs skvs HSk) (apart_self W _ HA)).
        exact (HP _ (uses_refl _ _)). }
      refine (Forall2_impl2 _ _ _ _ _ (Forall2_and_l _ _ _ _ H (Forall2_and_l _ _ _ _ HTk (Forall2_and_l _ _ _ _ HTv
                (Forall2_and_l _ _ _ _ (Forall_in kvs) (Forall2_both _ _ _ _ HSk HSv)))))).
      cbn beta. intros [k v] [k' v'] ((Gk & Gv) & Tk & Tv & I & Sk & Sv) b' r Hb'.
      cbn [fst snd] in *.
      apply bind_ok in Hb' as (bk & Hk & Hb'). apply bind_ok in Hb' as (bv & Hv & [= <-]).
      assert (M : (Nat.max (vdepth k) (vdepth v) <= list_max (map (fun p => Nat.max (vdepth (fst p)) (vdepth (snd p))) kvs))%nat).
      { apply list_max_in. apply in_map_iff. exists (k, v). auto. }
      assert (SB : forall u, incl (subvals u) (subvals k ++ subvals v) -> incl (subvals u) (subvals (VMap kvs))).
      { intros u Hu w Hw. cbn [subvals]. right.
        apply in_flat_map. exists (k, v). split; [exact I|]. apply Hu, Hw. }
      assert (SK : incl (subvals k) (subvals (VMap kvs))) by (apply SB; intros w Hw; apply in_app_iff; auto).
      assert (SV : incl (subvals v) (subvals (VMap kvs))) by (apply SB; intros w Hw; apply in_app_iff; auto).
      unfold read_pair. rewrite <- app_assoc.
      rewrite (Gk tk k' bk (bv ++ r) d); auto; [|..|lia].
      2: eapply no_lost_sub; [exact HN|exact SK].
      2: eapply apart_sub; [exact HA|exact SK].
      2: eapply plains_sub; [|exact HP]; intros; now apply uses_key.
      cbn [bind]. rewrite (Gv tv v' bv r d); auto; [|..|lia].
      + eapply no_lost_sub; [exact HN|exact SV].
      + eapply apart_sub; [exact HA|exact SV].
      + eapply plains_sub; [|exact HP]; intros; now apply uses_val.
    - (* set *)
      cbn [write] in HW. apply bind_ok in HW as (hd & Hh & HW). apply bind_ok in HW as (b & Hb & [= <-]).
      apply put_len_ok in Hh as [-> HL]. rewrite <- app_assoc, slen_enc by assumption. cbn [bind].
      inversion HT; subst.
      match goal with X : Forall (has_type E t) vs |- _ => rename X into HTs end.
      match goal with X : Forall2 (same computed E t) vs ss |- _ => rename X into HSs end.
      rewrite (repeat_read_cat2 _ (write E t) vs ss); [|clear Hb|exact Hb].
      { cbn [bind]. rewrite set_of_nodup; [reflexivity|].
        exact (norm_nodup W computed E t _ _ (HP _ (uses_refl _ _)) HSs (apart_self W _ HA)). }
      refine (Forall2_impl2 _ _ _ _ _ (Forall2_and_l _ _ _ _ H (Forall2_and_l _ _ _ _ HTs
                (Forall2_and_l _ _ _ _ (Forall_in vs) HSs)))).
      cbn beta. intros v g (G & T & I & S1) b' r Hb'. apply (G t g b' r d); auto.
      + apply (no_lost_list vs (VSet vs)); auto.
      + apply (apart_list W vs (VSet vs)); auto.
      + eapply plains_sub; [|exact HP]. intros; now constructor.
      + assert (vdepth v <= list_max (map vdepth vs))%nat by (apply list_max_in, in_map, I). lia.
    - (* record *)
      rewrite write_rec in HW. match goal with X : defs E n = _ |- _ => rewrite X in *; rename X into HD1 end.
      inversion HT; subst. rewrite HD1 in *.
      match goal with X : Some _ = Some _ |- _ => injection X as <- end.
      rewrite (sread_fields d ts vs ss); auto.
      + apply Forall_forall. intros t It. eapply plains_sub; [|exact HP]. intros; eapply uses_field; eauto.
      + intros v I. split; [apply (no_lost_list vs (VRec vs)); auto|].
        split; [apply (apart_list W vs (VRec vs)); auto|].
        assert (vdepth v <= list_max (map vdepth vs))%nat by (apply list_max_in, in_map, I). lia.
    - (* enum *)
      rewrite write_enum in HW. match goal with X : defs E n = _ |- _ => rewrite X in *; rename X into HD1 end.
      match goal with X : nth_error variants i = _ |- _ => rewrite X in *; rename X into HD2 end.
      inversion HT; subst. match goal with X : defs E n = _ |- _ => rewrite HD1 in X end.
      match goal with X : Some _ = Some _ |- _ => injection X as <- <- end.
      match goal with X : nth_error variants i = _ |- _ => rewrite HD2 in X; injection X as <- end.
      apply bind_ok in HW as (fb & HW & [= <-]).
      rewrite <- app_assoc, get_checked_enc. cbn [bind]. unfold i32_max in *.
      rewrite dec_s_enc by (rewrite ?half_4; lia).
      destruct (Z.ltb_spec (Z.of_nat i + 1) 1); [lia|].
      replace (Z.to_nat (Z.of_nat i + 1 - 1)) with i by lia. rewrite HD2.
      rewrite (sread_fields d ts vs ss); auto.
      + apply Forall_forall. intros t It. eapply plains_sub; [|exact HP].
        intros; eapply uses_variant; eauto using nth_error_In.
      + intros v I. split; [apply (no_lost_list vs (VEnum i vs)); auto|].
        split; [apply (apart_list W vs (VEnum i vs)); auto|].
        assert (vdepth v <= list_max (map vdepth vs))%nat by (apply list_max_in, in_map, I). lia.
    - (* flat *)
      cbn [write] in HW. match goal with X : defs E n = _ |- _ => rewrite X in *; rename X into HD1 end.
      inversion HT; subst. match goal with X : defs E n = _ |- _ => rewrite HD1 in X end.
      match goal with X : Some _ = Some _ |- _ => injection X as <- <- end.
      destruct (Nat.ltb_spec i k); [|discriminate].
      apply bind_ok in HW as (sb & HW & [= <-]). unfold write_str in HW.
      apply bind_ok in HW as (hd & Hh & [= <-]).
      rewrite <- (app_assoc (enc 4 _)), get_checked_enc. cbn [bind]. unfold i32_max in *.
      rewrite dec_s_enc by (rewrite ?half_4; lia).
      destruct (Z.leb_spec 1 (Z.of_nat i + 1)); [|lia].
      destruct (Z.leb_spec (Z.of_nat i + 1) (Z.of_nat k)); [|lia]. cbn [andb].
      rewrite (sread_str_enc _ rest hd) by assumption. cbn [bind].
      replace (Z.to_nat (Z.of_nat i + 1 - 1)) with i by lia. reflexivity.
    - (* object *)
      cbn [write] in HW. match goal with X : defs E n = _ |- _ => rewrite X in *; rename X into HD1 end.
      inversion HT; subst. injection HW as <-. rewrite get_checked_enc. cbn [bind].
      rewrite dec_u_enc by assumption. reflexivity.
    - (* custom *)
      cbn [write] in HW. match goal with X : defs E _ = Some (DCustom _) |- _ => rewrite X in *; rename X into HD1 end.
      rewrite String.eqb_refl in HW.
      inversion HT; subst. match goal with X : defs E _ = _, Y : defs E _ = _ |- _ => rewrite X in Y end.
      match goal with X : Some _ = Some _ |- _ => injection X as <- end.
      apply (IHv b f bs rest d); auto; [|..|lia].
      + eapply no_lost_sub; [exact HN|]. cbn. intros u Hu; now right.
      + eapply apart_sub; [exact HA|]. cbn. intros u Hu; now right.
      + eapply plains_sub; [|exact HP]. intros; eapply uses_builtin; eauto.
  Qed.
End Reads.

(** * Other clocks *)

Section Mono.
  Variables R R' : clock.
  Variable E : env.

  Definition leaf_ok (v : val) : Prop := forall t x,
    (In (VTime t) (subvals v) -> m_time R t x -> m_time R' t x) /\
    (In (VDur t) (subvals v) -> m_dur R t x -> m_dur R' t x).

  Lemma leaf_sub v u : leaf_ok v -> incl (subvals u) (subvals v) -> leaf_ok u.
  Proof. intros H I t x. destruct (H t x). split; intros J; auto. Qed.
  Lemma leaf_list vs u v :
    subvals u = u :: flat_map subvals vs -> leaf_ok u -> In v vs -> leaf_ok v.
  Proof.
    intros X H Hv. eapply leaf_sub; [exact H|]. intros w Hw. rewrite X. right.
    eapply in_flat_map_sub; eauto.
  Qed.

  Lemma sames_mono ts vs ss :
    Forall (fun v => forall t s, same R E t v s -> leaf_ok v -> same R' E t v s) vs ->
    (forall v, In v vs -> leaf_ok v) -> sames R E ts vs ss -> sames R' E ts vs ss.
  Proof.
    intros H L S. revert H L. induction S as [|t ts v vs s ss S1 S IH]; intros H L; [constructor|].
    inversion H; subst. constructor; [|apply IH; [assumption|intros u I; apply L; now right]].
    match goal with X : forall t s, _ |- _ => apply X; [exact S1|apply L; now left] end.
  Qed.

  Lemma list_mono t vs ss :
    Forall (fun v => forall t s, same R E t v s -> leaf_ok v -> same R' E t v s) vs ->
    (forall v, In v vs -> leaf_ok v) -> Forall2 (same R E t) vs ss -> Forall2 (same R' E t) vs ss.
  Proof.
    intros H L S. revert H L. induction S as [|v s vs ss S1 S IH]; intros H L; [constructor|].
    inversion H; subst. constructor; [|apply IH; [assumption|intros u I; apply L; now right]].
    match goal with X : forall t s, _ |- _ => apply X; [exact S1|apply L; now left] end.
  Qed.

  Lemma same_mono v : forall t s, same R E t v s -> leaf_ok v -> same R' E t v s.
  Proof.
    induction v using val_ind'; intros ty s0 HS L; inversion HS; subst;
      try (constructor; fail); try (econstructor; eassumption).
    - constructor. apply (L t x); [cbn; auto|assumption].
    - constructor. apply (L t x); [cbn; auto|assumption].
    - constructor. apply IHv; [assumption|]. eapply leaf_sub; [exact L|]. cbn. intros u Hu; now right.
    - constructor. apply IHv; [assumption|]. eapply leaf_sub; [exact L|]. cbn. intros u Hu; now right.
    - constructor; [assumption|]. apply list_mono; [assumption| |assumption].
      intros v I. eapply leaf_list; [|exact L|exact I]. reflexivity.
    - assert (LK : forall p, In p kvs -> leaf_ok (fst p) /\ leaf_ok (snd p)).
      { intros p Hp. split; (eapply leaf_sub; [exact L|]); intros w Hw; cbn [subvals]; right;
          apply in_flat_map; exists p; (split; [exact Hp|]); apply in_app_iff; auto. }
      match goal with X : Forall2 (fun p q => same R E tk (fst p) (fst q)) kvs skvs |- _ => rename X into S1 end.
      match goal with X : Forall2 (fun p q => same R E tv (snd p) (snd q)) kvs skvs |- _ => rename X into S2 end.
      constructor.
      + clear S2 HS L. induction S1 as [|p q kvs skvs X S1 IH]; constructor.
        * inversion H as [|? ? [G _] _]; subst. apply G; [exact X|]. apply LK. now left.
        * inversion H; subst. apply IH; [assumption|intros r Hr; apply LK; now right].
      + clear S1 HS L. induction S2 as [|p q kvs skvs X S2 IH]; constructor.
        * inversion H as [|? ? [_ G] _]; subst. apply G; [exact X|]. apply LK. now left.
        * inversion H; subst. apply IH; [assumption|intros r Hr; apply LK; now right].
    - constructor. apply list_mono; [assumption| |assumption].
      intros v I. eapply leaf_list; [|exact L|exact I]. reflexivity.
    - eapply s_rec; [eassumption|]. apply sames_mono; [assumption| |assumption].
      intros v I. eapply leaf_list; [|exact L|exact I]. reflexivity.
    - eapply s_enum; [eassumption..|]. apply sames_mono; [assumption| |assumption].
      intros v I. eapply leaf_list; [|exact L|exact I]. reflexivity.
    - eapply s_custom; [eassumption|]. apply IHv; [assumption|]. eapply leaf_sub; [exact L|].
      cbn. intros u Hu; now right.
  Qed.
End Mono.

Lemma computed_near v : no_lost_instant v -> leaf_ok computed to_swift v.
Proof.
  intros N t x. split; intros I H.
  - cbn in H. rewrite H. apply date_read_near, N, I.
  - destruct H as [B ->]. apply dur_read_near.
    pose proof (Z.div_mod t 1000000000 ltac:(lia)). pose proof (Z.mod_pos_bound t 1000000000 ltac:(lia)). lia.
Qed.

Lemma computed_exact v : whole v -> leaf_ok computed exactly v.
Proof.
  intros N t x. split; intros I H.
  - destruct (N t (or_introl I)) as (s & B & E). cbn in H. exists s.
    split; [exact B|]. split; [exact E|]. subst t x. unfold t_secs, t_nanos, ns, since1970, units.
    replace (Z.abs (s * 1000000000)) with (Z.abs s * 1000000000) by lia.
    rewrite Z.div_mul, Z.mod_mul by lia.
    assert (S : (if 0 <=? s * 1000000000 then 1 else -1) * Z.abs s = s)
      by (destruct (Z.leb_spec 0 (s * 1000000000)); lia).
    rewrite S, date_read_whole by exact B. lia.
  - destruct (N t (or_intror I)) as (s & B & E). destruct H as [D ->]. exists s.
    subst t. unfold ns in *. rewrite Z.div_mul in D |- * by lia. rewrite Z.mod_mul by lia.
    split; [lia|]. split; [reflexivity|]. unfold units. apply dur_read_whole. lia.
Qed.

Theorem rust_to_swift W E v t bs :
  has_type E t v -> plain_keys E t -> apart W v -> no_lost_instant v -> write E t v = Ok bs ->
  exists s, same to_swift E t v s /\ swift_reads W E t (vdepth v) bs s.
Proof.
  intros T P A N Wr. destruct (counterpart E v t T) as [s S]. exists s. split.
  - exact (same_mono computed to_swift E v t s S (computed_near v N)).
  - intros d rest D. exact (sread_write W E v t s bs rest d S T N A P Wr D).
Qed.
