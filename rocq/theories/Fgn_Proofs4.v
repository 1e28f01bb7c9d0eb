(** Every Rust value whose leaves have a foreign counterpart has one. *)
From Verif Require Import Base Utf8 Utf8_Proofs Wire_Model Wire_Spec Wire_Proofs
  Fgn_Model Fgn_Spec Fgn_Proofs Fgn_Proofs2 Fgn_Proofs3.
Local Open Scope Z_scope.

Fixpoint tsubs_fields (E : env) (ts : list ty) (vs : list val) {struct vs} : list (ty * val) :=
  match ts, vs with
  | t :: ts', v :: vs' => tsubs E t v ++ tsubs_fields E ts' vs'
  | _, _ => []
  end.

Lemma tsubs_rec E n ts vs : defs E n = Some (DRecord ts) ->
  tsubs E (TNamed n) (VRec vs) = (TNamed n, VRec vs) :: tsubs_fields E ts vs.
Proof.
  intros D. cbn [tsubs]. rewrite D. f_equal. revert vs.
  clear D. induction ts as [|t ts IH]; intros [|v vs]; try reflexivity. cbn. now rewrite IH.
Qed.

Lemma tsubs_enum E n ne variants i ts vs :
  defs E n = Some (DEnum ne variants) -> nth_error variants i = Some ts ->
  tsubs E (TNamed n) (VEnum i vs) = (TNamed n, VEnum i vs) :: tsubs_fields E ts vs.
Proof.
  intros D V. cbn [tsubs]. rewrite D, V. f_equal. revert vs.
  clear D V. induction ts as [|t ts IH]; intros [|v vs]; try reflexivity. cbn. now rewrite IH.
Qed.

Lemma tsubs_self E t v : In (t, v) (tsubs E t v).
Proof. destruct v; cbn [tsubs]; left; reflexivity. Qed.

Lemma Forall2_in_r' {A B} (R : A -> B -> Prop) l l' y :
  Forall2 R l l' -> In y l' -> exists x, In x l /\ R x y.
Proof.
  induction 1 as [|a b l l' H F IH]; intros I; [destruct I|]. destruct I as [<-|I].
  - exists a. split; [now left|exact H].
  - destruct (IH I) as (x & X & Y). exists x. split; [now right|exact Y].
Qed.

Section Total.
  Variable R : corr.
  Variable E : env.
  Variable P : ty -> val -> Prop.
  Variable K : ty -> Prop.
  Hypothesis Tint : forall sg w z, P (TInt sg w) (VInt z) -> c_int R sg w z.
  Hypothesis Tfloat : forall (d : bool) z, 0 <= z < modulus (if d then 8 else 4)%nat ->
    P (TFloat d) (VFloat z) -> exists f, c_float R d z f.
  Hypothesis Tstr : forall s, utf8_valid s = true -> exists cs, c_str R s cs.
  Hypothesis Ttime : forall t, P TTimestamp (VTime t) -> exists x, c_time R t x.
  Hypothesis Tdur : forall t, P TDuration (VDur t) -> exists x, c_dur R t x.
  Hypothesis Tobj : forall n h, P (TNamed n) (VObj h) -> c_obj R h.
  Hypothesis Tkey : forall k v f, K k -> same R E k v f -> c_key R f.
  (* distinct Rust values have distinct counterparts *)
  Hypothesis Jfloat : forall (d : bool) z z' f,
    0 <= z < modulus (if d then 8 else 4)%nat -> 0 <= z' < modulus (if d then 8 else 4)%nat ->
    c_float R d z f -> c_float R d z' f -> z = z'.
  Hypothesis Jstr : forall s s' c, c_str R s c -> c_str R s' c -> s = s'.
  Hypothesis Jtime : forall k, K k ->
    (forall t t' x, c_time R t x -> c_time R t' x -> t = t') \/ ~ uses E k TTimestamp.
  Hypothesis Jdur : forall k, K k ->
    (forall t t' x, c_dur R t x -> c_dur R t' x -> t = t') \/ ~ uses E k TDuration.

  Definition ticks_at (k : ty) : Prop :=
    ((forall t t' x, c_time R t x -> c_time R t' x -> t = t') \/ ~ uses E k TTimestamp) /\
    ((forall t t' x, c_dur R t x -> c_dur R t' x -> t = t') \/ ~ uses E k TDuration).

  Lemma ticks_sub k k' : (forall u, uses E k' u -> uses E k u) -> ticks_at k -> ticks_at k'.
  Proof.
    intros S' [[A|A] [B|B]]; split; auto; right; intros U; try (apply A, S', U); apply B, S', U.
  Qed.

  Lemma same_not_none t v f : same R E t v f -> ~ nullable E t -> f <> FNone.
  Proof.
    revert t f. induction v using val_ind'; intros ty f H1 N X; subst; inversion H1; subst.
    - apply N. constructor.
    - congruence.
    - match goal with X : same R E ?u v FNone |- _ =>
        apply (IHv u FNone X); [|reflexivity] end.
      intros Q. apply N. now constructor.
    - match goal with X : same R E ?u v FNone |- _ =>
        apply (IHv u FNone X); [|reflexivity] end.
      intros Q. apply N. econstructor; eauto.
  Qed.

  Lemma sames_back ts vs :
    Forall (fun v => forall t v' f, ticks_at t -> has_type E t v -> has_type E t v' ->
                     same R E t v f -> same R E t v' f -> v = v') vs ->
    forall vs' fs, Forall ticks_at ts -> Forall2 (has_type E) ts vs -> Forall2 (has_type E) ts vs' ->
    sames R E ts vs fs -> sames R E ts vs' fs -> vs = vs'.
  Proof.
    intros H; revert ts; induction H as [|v vs H _ IH]; intros ts vs' fs T H1 H2 A1 A2;
      inversion A1; subst; inversion A2; subst; [reflexivity|].
    inversion T; inversion H1; inversion H2; subst. f_equal; eauto.
  Qed.

  Lemma Forall2_back {B} (Q : val -> B -> Prop) (HT : val -> Prop) vs :
    Forall (fun v => forall v' f, HT v -> HT v' -> Q v f -> Q v' f -> v = v') vs ->
    forall vs' fs, Forall HT vs -> Forall HT vs' -> Forall2 Q vs fs -> Forall2 Q vs' fs -> vs = vs'.
  Proof.
    induction 1 as [|v vs H _ IH]; intros vs' fs T T' A1 A2; inversion A1; subst; inversion A2; subst;
      [reflexivity|]. inversion T; inversion T'; subst. f_equal; eauto.
  Qed.

  Lemma same_back v : forall t v' f, ticks_at t -> has_type E t v -> has_type E t v' ->
    same R E t v f -> same R E t v' f -> v = v'.
  Proof.
    induction v using val_ind'; intros ty v' f TA T1 T2 H1 H2; inversion H1; subst;
      inversion H2; subst; try reflexivity; try congruence.
    - inversion T1; inversion T2; subst. f_equal. eapply Jfloat; eauto.
    - f_equal; eauto.
    - f_equal. destruct TA as [[A|A] _]; [eauto|]. exfalso. apply A. constructor.
    - f_equal. destruct TA as [_ [A|A]]; [eauto|]. exfalso. apply A. constructor.
    - inversion T1; inversion T2; subst. f_equal. eapply IHv; [|eassumption..].
      eapply ticks_sub; [|exact TA]. intros; now constructor.
    - inversion T1; inversion T2; subst. f_equal. eapply IHv; [|eassumption..].
      eapply ticks_sub; [|exact TA]. intros; now constructor.
    - inversion T1; inversion T2; subst. f_equal.
      eapply (Forall2_back (same R E t) (has_type E t)); [|eassumption..]. rewrite Forall_forall in *.
      intros v Hv w g Q1 Q2 Q3 Q4. refine (H v Hv t w g _ Q1 Q2 Q3 Q4).
      eapply ticks_sub; [|exact TA]. intros; now constructor.
    - inversion T1; inversion T2; subst. f_equal.
      match goal with X : Forall (fun p => has_type E tk (fst p)) kvs, Y : Forall (fun p => has_type E tk (fst p)) kvs0 |- _ =>
        rename X into K1; rename Y into K2 end.
      match goal with X : Forall (fun p => has_type E tv (snd p)) kvs, Y : Forall (fun p => has_type E tv (snd p)) kvs0 |- _ =>
        rename X into V1; rename Y into V2 end.
      match goal with X : Forall2 (fun p q => same R E tk (fst p) (fst q)) kvs fkvs, Y : Forall2 (fun p q => same R E tk (fst p) (fst q)) kvs0 fkvs |- _ =>
        rename X into SK1; rename Y into SK2 end.
      match goal with X : Forall2 (fun p q => same R E tv (snd p) (snd q)) kvs fkvs, Y : Forall2 (fun p q => same R E tv (snd p) (snd q)) kvs0 fkvs |- _ =>
        rename X into SV1; rename Y into SV2 end.
      assert (Ak : ticks_at tk) by (eapply ticks_sub; [|exact TA]; intros; now apply uses_key).
      assert (Av : ticks_at tv) by (eapply ticks_sub; [|exact TA]; intros; now apply uses_val).
      clear - H K1 K2 V1 V2 SK1 SK2 SV1 SV2 Ak Av. revert kvs0 fkvs K2 V2 SK1 SK2 SV1 SV2.
      induction H as [|[k v] kvs [Hk Hv] _ IH]; intros kvs0 fkvs K2 V2 SK1 SK2 SV1 SV2;
        inversion SK1; subst; inversion SK2; subst; [reflexivity|].
      inversion SV1; inversion SV2; inversion K1; inversion K2; inversion V1; inversion V2; subst.
      cbn [fst snd] in *. destruct x as [k' v']. cbn [fst snd] in *. f_equal; [f_equal; eauto|eauto].
    - inversion T1; inversion T2; subst. f_equal.
      eapply (Forall2_back (same R E t) (has_type E t)); [|eassumption..]. rewrite Forall_forall in *.
      intros v Hv w g Q1 Q2 Q3 Q4. refine (H v Hv t w g _ Q1 Q2 Q3 Q4).
      eapply ticks_sub; [|exact TA]. intros; now constructor.
    - match goal with X : defs E n = Some (DRecord ts), Y : defs E n = Some (DRecord ts0) |- _ =>
        rewrite X in Y; injection Y as <-; rename X into D end.
      inversion T1; inversion T2; subst. rewrite D in *.
      repeat match goal with X : Some _ = Some _ |- _ => injection X as X; subst end.
      f_equal. eapply sames_back; [exact H| |eassumption..]. apply Forall_forall. intros t Ht.
      eapply ticks_sub; [|exact TA]. intros; eapply uses_field; eauto.
    - match goal with X : defs E n = Some (DEnum ne variants), Y : defs E n = Some (DEnum _ variants0) |- _ =>
        rewrite X in Y; injection Y as <- <-; rename X into D end.
      match goal with X : nth_error variants i = Some ts, Y : nth_error variants i = Some ts0 |- _ =>
        rewrite X in Y; injection Y as <-; rename X into DV end.
      inversion T1; inversion T2; subst. rewrite D in *.
      repeat match goal with X : Some _ = Some _ |- _ => injection X as X; subst end.
      rewrite DV in *.
      repeat match goal with X : Some _ = Some _ |- _ => injection X as X; subst end.
      f_equal. eapply sames_back; [exact H| |eassumption..]. apply Forall_forall. intros t Ht.
      eapply ticks_sub; [|exact TA]. intros; eapply uses_variant; eauto using nth_error_In.
    - f_equal; eauto.
    - match goal with X : defs E n = Some (DCustom b), Y : defs E n = Some (DCustom b0) |- _ =>
        rewrite X in Y; injection Y as <-; rename X into D end.
      inversion T1; inversion T2; subst. rewrite D in *.
      repeat match goal with X : Some _ = Some _ |- _ => injection X as X; subst end.
      f_equal. eapply IHv; [|eassumption..]. eapply ticks_sub; [|exact TA]. intros; eapply uses_builtin; eauto.
  Qed.

  Lemma sames_total ts vs :
    Forall (fun v => forall t, plain_options E t -> key_types E K t -> has_type E t v ->
              leaves E P t v -> exists f, same R E t v f) vs ->
    Forall (plain_options E) ts -> Forall (key_types E K) ts ->
    Forall2 (has_type E) ts vs -> (forall u w, In (u, w) (tsubs_fields E ts vs) -> P u w) ->
    exists fs, sames R E ts vs fs.
  Proof.
    intros H; revert ts; induction H as [|v vs H _ IH]; intros ts HP HK HT HL; inversion HT; subst.
    - exists []. constructor.
    - inversion HP; inversion HK; subst. cbn [tsubs_fields] in HL.
      destruct (H _ ltac:(eassumption) ltac:(eassumption) ltac:(eassumption)) as [f Hf].
      { intros u w I. apply HL, in_or_app. now left. }
      destruct (IH _ ltac:(eassumption) ltac:(eassumption) ltac:(eassumption)) as [fs Hfs].
      { intros u w I. apply HL, in_or_app. now right. }
      exists (f :: fs). now constructor.
  Qed.

  Lemma list_total t vs :
    Forall (fun v => forall t, plain_options E t -> key_types E K t -> has_type E t v ->
              leaves E P t v -> exists f, same R E t v f) vs ->
    plain_options E t -> key_types E K t -> Forall (has_type E t) vs ->
    (forall u w, In (u, w) (flat_map (tsubs E t) vs) -> P u w) ->
    exists fs, Forall2 (same R E t) vs fs.
  Proof.
    intros H HP HK; induction H as [|v vs H _ IH]; intros HT HL.
    - exists []. constructor.
    - inversion HT; subst. cbn [flat_map] in HL.
      destruct (H t HP HK ltac:(eassumption)) as [f Hf].
      { intros u w I. apply HL, in_or_app. now left. }
      destruct IH as [fs Hfs]; [assumption|intros u w I; apply HL, in_or_app; now right|].
      exists (f :: fs). now constructor.
  Qed.

  Lemma po_sub t u : uses E t u -> (forall x, uses E u x -> uses E t x) -> plain_options E t -> plain_options E u.
  Proof. intros _ S' H x X. apply H, S', X. Qed.
  Lemma kt_sub t u : (forall x, uses E u x -> uses E t x) -> key_types E K t -> key_types E K u.
  Proof. intros S' H x X. apply H, S', X. Qed.

  Lemma back_nodup t vs fs : ticks_at t -> Forall (has_type E t) vs -> Forall2 (same R E t) vs fs ->
    NoDup vs -> NoDup fs.
  Proof.
    intros TA HT F N. induction F as [|v f vs fs Hvf F IH]; [constructor|].
    inversion N; inversion HT; subst. constructor; [|auto]. intros I.
    destruct (Forall2_in_r' _ _ _ _ F I) as (w & Iw & Hw).
    match goal with X : ~ In v vs |- _ => apply X end.
    replace v with w; [exact Iw|]. eapply same_back; eauto. rewrite Forall_forall in *. auto.
  Qed.

  Lemma same_total v : forall t, plain_options E t -> key_types E K t -> has_type E t v ->
    leaves E P t v -> exists f, same R E t v f.
  Proof.
    induction v using val_ind'; intros ty HP HK HT HL; inversion HT; subst;
      try match goal with |- context [same R E ?t ?v _] =>
        pose proof (HL t v (tsubs_self E t v)) as Hself end.
    - eexists. constructor. auto.
    - eexists. constructor. auto.
    - destruct (Tfloat d z ltac:(assumption) Hself) as [f Hf]. eexists. constructor. exact Hf.
    - eexists. constructor.
    - destruct (Tstr s ltac:(assumption)) as [f Hf]. eexists. constructor. exact Hf.
    - destruct (Ttime t Hself) as [f Hf]. eexists. constructor. exact Hf.
    - destruct (Tdur t Hself) as [f Hf]. eexists. constructor. exact Hf.
    - exists FNone. constructor.
    - destruct (IHv t) as [f Hf]; [..|exists f; constructor; [exact Hf|]].
      + intros x X. apply HP. now constructor.
      + eapply kt_sub; [|exact HK]. intros; now constructor.
      + assumption.
      + intros u w I. apply HL. right. exact I.
      + eapply same_not_none; [exact Hf|]. apply HP. constructor.
    - destruct (IHv t) as [f Hf]; [..|exists f; constructor; exact Hf].
      + intros x X. apply HP. now constructor.
      + eapply kt_sub; [|exact HK]. intros; now constructor.
      + assumption.
      + intros u w I. apply HL. right. exact I.
    - destruct (is_u8 t) eqn:U.
      + assert (t = TInt false W8) as -> by (destruct t as [[] []| | | | | | | | | | |]; try discriminate; reflexivity).
        match goal with X : Forall (has_type E _) vs |- _ => clear - X; rename X into Y end.
        assert (exists bs, vs = map (fun b => VInt (Z.of_N (b2n b))) bs) as [bs ->].
        { induction Y as [|v vs Hv _ [bs ->]]; [now exists []|].
          inversion Hv; subst. exists (n2b (Z.to_N z) :: bs). cbn [map].
          match goal with X : 0 <= z < _ |- _ => cbn [wbytes] in X; change (modulus 1) with 256 in X end.
          rewrite b2n_small by lia. do 2 f_equal. lia. }
        eexists. constructor.
      + assert (N : t <> TInt false W8) by (intros ->; discriminate).
        destruct (list_total t vs) as [fs Hfs]; [exact H|..|exists (FSeq fs); now apply s_seq].
        * intros x X. apply HP. now constructor.
        * eapply kt_sub; [|exact HK]. intros; now constructor.
        * assumption.
        * intros u w I. apply HL. right. cbn [tsubs]. destruct t as [[] []| | | | | | | | | | |]; try exact I; congruence.
    - match goal with X : Forall (fun p => has_type E tk (fst p)) kvs |- _ => rename X into Tk end.
      match goal with X : Forall (fun p => has_type E tv (snd p)) kvs |- _ => rename X into Tv end.
      match goal with X : NoDup (map fst kvs) |- _ => rename X into ND end.
      assert (Pk : plain_options E tk) by (intros x X; apply HP; now apply uses_key).
      assert (Pv : plain_options E tv) by (intros x X; apply HP; now apply uses_val).
      assert (Kk : key_types E K tk) by (intros x X; apply HK; now apply uses_key).
      assert (Kv : key_types E K tv) by (intros x X; apply HK; now apply uses_val).
      assert (KK : K tk) by exact (HK _ (uses_refl _ _)).
      assert (exists fkvs, Forall2 (fun p q => same R E tk (fst p) (fst q)) kvs fkvs /\
                Forall2 (fun p q => same R E tv (snd p) (snd q)) kvs fkvs) as (fkvs & F1 & F2).
      { assert (HL' : forall u w, In (u, w) (flat_map (fun p => tsubs E tk (fst p) ++ tsubs E tv (snd p)) kvs) -> P u w)
          by (intros u w I; apply HL; right; exact I).
        clear HL Hself ND HT. induction H as [|[k v] kvs [Hk Hv] _ IH]; [exists []; split; constructor|].
        inversion Tk; inversion Tv; subst. cbn [fst snd flat_map] in *.
        destruct (Hk tk Pk Kk ltac:(assumption)) as [f Hf].
        { intros u w I. apply HL', in_or_app. left. apply in_or_app. now left. }
        destruct (Hv tv Pv Kv ltac:(assumption)) as [g Hg].
        { intros u w I. apply HL', in_or_app. left. apply in_or_app. now right. }
        destruct IH as (fkvs & F1 & F2); [assumption..|intros u w I; apply HL', in_or_app; now right|].
        exists ((f, g) :: fkvs). split; now constructor. }
      exists (FMap fkvs). constructor; [exact F1|exact F2| |].
      + assert (Forall2 (same R E tk) (map fst kvs) (map fst fkvs)) as F
          by (clear - F1; induction F1; constructor; auto).
        refine (back_nodup tk (map fst kvs) (map fst fkvs) _ _ F ND); [split; auto|].
        clear - Tk. induction Tk; constructor; auto.
      + clear - F1 KK Tkey. induction F1; constructor; eauto.
    - match goal with X : NoDup vs |- _ => rename X into ND end.
      assert (KK : K t) by exact (HK _ (uses_refl _ _)).
      destruct (list_total t vs) as [fs Hfs]; [exact H|..].
      { intros x X. apply HP. now constructor. }
      { eapply kt_sub; [|exact HK]. intros; now constructor. }
      { assumption. }
      { intros u w I. apply HL. right. exact I. }
      exists (FSet fs). constructor; [exact Hfs| |].
      + refine (back_nodup t vs fs _ _ Hfs ND); [split; auto|assumption].
      + clear - Hfs KK Tkey. induction Hfs; constructor; eauto.
    - match goal with X : defs E n = Some (DRecord ts) |- _ => rename X into D end.
      destruct (sames_total ts vs) as [fs Hfs]; [exact H|..|eexists; econstructor; eauto].
      + apply Forall_forall. intros t It x X. apply HP. eapply uses_field; eauto.
      + apply Forall_forall. intros t It x X. apply HK. eapply uses_field; eauto.
      + assumption.
      + intros u w I. apply HL. rewrite (tsubs_rec E n ts vs D). right. exact I.
    - match goal with X : defs E n = Some (DEnum ne variants) |- _ => rename X into D end.
      match goal with X : nth_error variants i = Some ts |- _ => rename X into DV end.
      destruct (sames_total ts vs) as [fs Hfs]; [exact H|..|eexists; econstructor; eauto].
      + apply Forall_forall. intros t It x X. apply HP. eapply uses_variant; eauto using nth_error_In.
      + apply Forall_forall. intros t It x X. apply HK. eapply uses_variant; eauto using nth_error_In.
      + assumption.
      + intros u w I. apply HL. rewrite (tsubs_enum E n ne variants i ts vs D DV). right. exact I.
    - match goal with X : utf8_valid _ = true |- _ => destruct (Tstr _ X) as [f Hf] end.
      eexists. econstructor; eauto.
    - eexists. econstructor; eauto.
    - match goal with X : defs E n = Some (DCustom b) |- _ => rename X into D end.
      destruct (IHv b) as [f Hf]; [..|exists f; econstructor; [exact D|exact Hf]].
      + intros x X. apply HP. eapply uses_builtin; eauto.
      + intros x X. apply HK. eapply uses_builtin; eauto.
      + assumption.
      + intros u w I. apply HL. cbn [tsubs]. rewrite D. right. exact I.
  Qed.
End Total.

Lemma utf8_cps s : utf8_valid s = true -> exists cs, str_cps s cs.
Proof.
  intros H. apply utf8_valid_iff in H as (cs & F & X). exists cs. now split.
Qed.

Lemma str_cps_back s s' c : str_cps s c -> str_cps s' c -> s = s'.
Proof. intros [_ ->] [_ ->]. reflexivity. Qed.

Lemma str_utf16_back s s' c : str_utf16 s c -> str_utf16 s' c -> s = s'.
Proof.
  intros (cs & F & -> & ->) (cs' & F' & -> & X).
  assert (Some cs = Some cs') as [= ->]; [|reflexivity].
  rewrite <- (utf16_dec_enc cs F), <- (utf16_dec_enc cs' F'). now rewrite X.
Qed.

Lemma float_total (d : bool) z : 0 <= z < modulus (if d then 8 else 4)%nat ->
  (TFloat d = TFloat false -> nan32 z -> quiet32 z) -> exists f, if d then z = f else number_of z f.
Proof.
  destruct d; intros B Q; [now exists z|]. exists (widen z). apply widen_number; [|auto].
  now apply (mod84 false).
Qed.

Lemma float_back (d : bool) z z' f : 0 <= z < modulus (if d then 8 else 4)%nat ->
  0 <= z' < modulus (if d then 8 else 4)%nat ->
  (if d then z = f else number_of z f) -> (if d then z' = f else number_of z' f) -> z = z'.
Proof.
  destruct d; intros B B' H H'; [congruence|].
  apply (mod84 false) in B; [|reflexivity]. apply (mod84 false) in B'; [|reflexivity].
  apply narrow_number in H; [|exact B]. apply narrow_number in H'; [|exact B']. congruence.
Qed.

Lemma us_total t : exists x, nearest_us t x /\ (1000 * x <= t + 500) /\ t - 500 <= 1000 * x.
Proof.
  exists (rhe t 1000). pose proof (rhe_half t 1000 ltac:(lia)) as H.
  pose proof (rhe_even t 1000 ltac:(lia)) as Ev.
  split; [|lia]. unfold nearest_us.
  replace (t - 1000 * rhe t 1000) with (- (rhe t 1000 * 1000 - t)) by lia. rewrite Z.abs_opp.
  destruct (Z.eq_dec (2 * Z.abs (rhe t 1000 * 1000 - t)) 1000) as [X|X]; [right|left; lia].
  split; [exact X|auto].
Qed.

Lemma py_key_same R E h k v f : py_key_type E h k -> same R E k v f -> py_key E h f.
Proof.
  intros H. revert v f.
  induction H as [| | | | | |t H IH|t H IH| |n ts D X|n ne vs D X|n kk r D|n D|n b D H IH];
    intros v f G; inversion G; subst; cbn [py_key]; try exact I; eauto; try congruence;
    try (rewrite D in *; match goal with X : Some _ = Some _ |- _ => try discriminate X end; assumption).
  rewrite D in *. match goal with X : Some _ = Some _ |- _ => injection X as <- end. eauto.
Qed.

Theorem py_total E h t v : plain_options E t -> key_types E (py_keys E h) t -> has_type E t v ->
  leaves E py_leaf_of t v -> exists f, same (py_to E h) E t v f.
Proof.
  refine (same_total (py_to E h) E py_leaf_of (py_keys E h) _ _ _ _ _ _ _ _ _ _ _ v t);
    cbn [c_int c_float c_str c_time c_dur c_obj c_key py_to].
  - exact (fun _ _ _ _ => I).
  - intros d z B Q. exact (float_total d z B Q).
  - exact utf8_cps.
  - intros x B. cbn [py_leaf_of] in B. destruct (us_total x) as (y & N & L & G). exists y.
    split; [exact N|lia].
  - intros x B. cbn [py_leaf_of] in B. destruct (us_total x) as (y & N & L & G). exists y.
    split; [exact N|lia].
  - intros n x B. exact B.
  - intros k w f [K _] G. exact (py_key_same _ E h k w f K G).
  - exact float_back.
  - exact str_cps_back.
  - intros k (_ & N & _). now right.
  - intros k (_ & _ & N). now right.
Qed.

Theorem kt_total E t v : plain_options E t -> has_type E t v ->
  leaves E kt_leaf_of t v -> exists f, same kt_to E t v f.
Proof.
  intros HP. refine (same_total kt_to E kt_leaf_of (fun _ => True) _ _ _ _ _ _ _ _ _ _ _ v t HP _);
    cbn [c_int c_float c_str c_time c_dur c_obj c_key kt_to].
  - exact (fun _ _ _ _ => I).
  - intros d z B Q. now exists z.
  - intros s H. destruct (utf8_cps s H) as (cs & F & ->). exists (utf16_enc cs). exists cs. auto.
  - intros x B. exists x. split; [reflexivity|exact B].
  - intros x B. exists x. split; [reflexivity|exact B].
  - intros n x B. exact I.
  - intros k w f _ G. exact I.
  - intros d z z' f _ _ -> ->. reflexivity.
  - exact str_utf16_back.
  - intros k _. left. intros a b x [-> _] [-> _]. reflexivity.
  - intros k _. left. intros a b x [-> _] [-> _]. reflexivity.
  - intros u _. destruct u; exact I.
Qed.

Theorem rb_total E t v : plain_options E t -> has_type E t v ->
  leaves E rb_leaf_of t v -> exists f, same rb_to E t v f.
Proof.
  intros HP. refine (same_total rb_to E rb_leaf_of (fun _ => True) _ _ _ _ _ _ _ _ _ _ _ v t HP _);
    cbn [c_int c_float c_str c_time c_dur c_obj c_key rb_to].
  - intros sg w z B -> ->. apply B. reflexivity.
  - intros d z B Q. exact (float_total d z B Q).
  - exact utf8_cps.
  - intros x B. now exists x.
  - intros x B. exists x. split; [reflexivity|exact B].
  - intros n x B. exact I.
  - intros k w f _ G. exact I.
  - exact float_back.
  - exact str_cps_back.
  - intros k _. left. intros a b x -> ->. reflexivity.
  - intros k _. left. intros a b x [-> _] [-> _]. reflexivity.
  - intros u _. destruct u; exact I.
Qed.
