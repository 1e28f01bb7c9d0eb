(** What Rust reads from the bytes Swift writes. *)
From Verif Require Import Base Utf8 Wire_Model Wire_Spec Wire_Proofs Wire_Proofs5 Fgn_Spec Fgn_Proofs
  Fgn_Proofs4 Swf_Model Swf_Spec Swf_Dbl Swf_Time Swf_Basics Swf_Read.
Local Open Scope Z_scope.

Lemma ssubs_self s : In s (ssubs s).
Proof. destruct s; cbn; auto. Qed.
Lemma held_sub W f g : held W f -> incl (ssubs g) (ssubs f) -> held W g.
Proof. intros H I h Hh. apply H, I, Hh. Qed.
Lemma held_list W f fs g :
  ssubs f = f :: flat_map ssubs fs -> held W f -> In g fs -> held W g.
Proof.
  intros X H I. eapply held_sub; [exact H|]. intros h Hh. rewrite X. right.
  apply in_flat_map. eauto.
Qed.
Lemma int_of_spec (sg : bool) w z : int_of sg w z = true ->
  if sg then - half (wbytes w) <= z < half (wbytes w) else 0 <= z < modulus (wbytes w).
Proof. unfold int_of. destruct sg; intros H; apply andb_true_iff in H as [H1 H2]; lia. Qed.
Lemma int_of_true (sg : bool) w z :
  (if sg then - half (wbytes w) <= z < half (wbytes w) else 0 <= z < modulus (wbytes w)) ->
  int_of sg w z = true.
Proof. unfold int_of. destruct sg; intros H; apply andb_true_iff; lia. Qed.
Lemma put_slen_fits n : Z.of_nat n <= i32_max -> put_slen n = Ok (enc 4 (Z.of_nat n)).
Proof. intros H. unfold put_slen, i32_max in *. rewrite half_4. destruct (Z.ltb_spec (Z.of_nat n) 2147483648); [reflexivity|lia]. Qed.

Section FromSwift.
  Variable Sw : swift.
  Variable E : env.

  Definition understood (d : nat) (t : ty) (f : sval) (bs : bytes) (v : val) : Prop :=
    has_type E t v /\ same from_swift E t v f /\ write E t v = Ok bs /\ (vdepth v <= S d)%nat.

  Definition goal_from (d : nat) : Prop := forall t f bs,
    swrite E d t f = Ok bs -> held Sw f -> plain_keys E t -> exists v, understood d t f bs v.

  Lemma from_list d t fs :
    goal_from d -> plain_keys E t -> (forall f, In f fs -> held Sw f) -> forall bs,
    cat_res (map (swrite E d t) fs) = Ok bs ->
    exists vs, Forall (has_type E t) vs /\ Forall2 (same from_swift E t) vs fs /\
      cat_res (map (write E t) vs) = Ok bs /\ (list_max (map vdepth vs) <= S d)%nat.
  Proof.
    intros G K. induction fs as [|f fs IH]; intros HP bs H; cbn [map cat_res] in H.
    - injection H as <-. exists []. repeat split; try constructor. cbn. lia.
    - apply bind_ok in H as (a & Ha & H). apply bind_ok in H as (b & Hb & [= <-]).
      destruct (G t f a Ha (HP f (or_introl eq_refl)) K) as (v & T & S1 & W & D).
      destruct (IH (fun g I => HP g (or_intror I)) b Hb) as (vs & T' & S' & W' & D').
      exists (v :: vs). split; [constructor; auto|]. split; [constructor; auto|].
      cbn [map cat_res]. rewrite W, W'. cbn [bind]. split; [reflexivity|].
      cbn [map list_max fold_right]. fold (list_max (map vdepth vs)). lia.
  Qed.

  Lemma from_fields d ts :
    goal_from d -> Forall (plain_keys E) ts -> forall fs bs, (forall f, In f fs -> held Sw f) ->
    swrite_all (swrite E d) ts fs = Ok bs ->
    exists vs, Forall2 (has_type E) ts vs /\ sames from_swift E ts vs fs /\
      write_fields E ts vs = Ok bs /\ (list_max (map vdepth vs) <= S d)%nat.
  Proof.
    intros G. induction 1 as [|t ts K KS IH]; intros [|f fs] bs HP H; cbn [swrite_all] in H; try discriminate.
    - injection H as <-. exists []. repeat split; try constructor. cbn. lia.
    - apply bind_ok in H as (a & Ha & H). apply bind_ok in H as (b & Hb & [= <-]).
      destruct (G t f a Ha (HP f (or_introl eq_refl)) K) as (v & T & S1 & W & D).
      destruct (IH fs b (fun g I => HP g (or_intror I)) Hb) as (vs & T' & S' & W' & D').
      exists (v :: vs). split; [constructor; auto|]. split; [constructor; auto|].
      cbn [write_fields]. rewrite W, W'. cbn [bind]. split; [reflexivity|].
      cbn [map list_max fold_right]. fold (list_max (map vdepth vs)). lia.
  Qed.

  Lemma from_pairs d tk tv kfs :
    goal_from d -> plain_keys E tk -> plain_keys E tv ->
    (forall p, In p kfs -> held Sw (fst p) /\ held Sw (snd p)) -> forall bs,
    cat_res (map (fun p => let* a := swrite E d tk (fst p) in
                           let* b := swrite E d tv (snd p) in Ok (a ++ b)) kfs) = Ok bs ->
    exists kvs, Forall (fun p => has_type E tk (fst p)) kvs /\
      Forall (fun p => has_type E tv (snd p)) kvs /\
      Forall2 (fun p q => same from_swift E tk (fst p) (fst q)) kvs kfs /\
      Forall2 (fun p q => same from_swift E tv (snd p) (snd q)) kvs kfs /\
      cat_res (map (fun p => let* a := write E tk (fst p) in
                             let* b := write E tv (snd p) in Ok (a ++ b)) kvs) = Ok bs /\
      (list_max (map (fun p => Nat.max (vdepth (fst p)) (vdepth (snd p))) kvs) <= S d)%nat.
  Proof.
    intros G Kk Kv. induction kfs as [|[k v] kfs IH]; intros HP bs H; cbn [map cat_res] in H.
    - injection H as <-. exists []. repeat split; try constructor. cbn. lia.
    - apply bind_ok in H as (a & Ha & H). apply bind_ok in H as (b & Hb & [= <-]).
      cbn [fst snd] in Ha. apply bind_ok in Ha as (ak & Hk & Ha). apply bind_ok in Ha as (av & Hv & [= <-]).
      destruct (HP (k, v) (or_introl eq_refl)) as [Pk Pv]. cbn [fst snd] in Pk, Pv.
      destruct (G tk k ak Hk Pk Kk) as (k' & T1 & S1 & W1 & D1).
      destruct (G tv v av Hv Pv Kv) as (v' & T2 & S2 & W2 & D2).
      destruct (IH (fun g I => HP g (or_intror I)) b Hb) as (kvs & T3 & T4 & S3 & S4 & W' & D').
      exists ((k', v') :: kvs). split; [constructor; auto|]. split; [constructor; auto|].
      split; [constructor; auto|]. split; [constructor; auto|].
      cbn [map cat_res fst snd]. rewrite W1, W2, W'. cbn [bind]. split; [reflexivity|].
      cbn [map list_max fold_right fst snd].
      fold (list_max (map (fun p => Nat.max (vdepth (fst p)) (vdepth (snd p))) kvs)). lia.
  Qed.

  Lemma modulus_1 : modulus 1 = 256. Proof. vm_compute. reflexivity. Qed.

  Theorem swrite_understood d : goal_from d.
  Proof.
    induction d as [|d IH]; intros t f bs H HP K; [discriminate|]. cbn [swrite] in H.
    pose proof (HP f (ssubs_self f)) as Wf.
    destruct t as [sg w|db| | | | |t'|t'|t'|tk tv|t'|n].
    - destruct f; try discriminate. destruct (int_of sg w z) eqn:I; [|discriminate].
      injection H as <-. exists (VInt z). apply int_of_spec in I.
      split; [destruct sg; constructor; assumption|]. split; [now constructor|].
      split; [reflexivity|cbn; lia].
    - destruct f; try discriminate.
      destruct ((0 <=? bits) && (bits <? modulus (if db then 8 else 4)%nat)) eqn:I; [|discriminate].
      injection H as <-. exists (VFloat bits). apply andb_true_iff in I as [I1 I2].
      split; [constructor; split; lia|]. split; [now constructor|]. split; [reflexivity|cbn; lia].
    - destruct f; try discriminate. injection H as <-. exists (VBool b).
      split; [constructor|]. split; [constructor|]. split; [reflexivity|cbn; lia].
    - destruct f; try discriminate. apply bind_ok in H as (hd & Hh & [= <-]).
      exists (VStr s). split; [now constructor|]. split; [now constructor|]. split; [|cbn; lia].
      cbn [write]. unfold write_str. apply put_slen_len in Hh. rewrite Hh. reflexivity.
    - destruct f; try (match type of H with Err = _ => discriminate H end). apply bind_ok in H as ([s n] & Hs & [= <-]).
      destruct Wf as [Dx Nx]. destruct (date_write_ok since2001 s n Dx Nx Hs) as (t & C & B & W). exists (VTime t).
      split; [now constructor|]. split; [now constructor|]. split; [exact W|cbn; lia].
    - destruct f; try (match type of H with Err = _ => discriminate H end). apply bind_ok in H as ([s n] & Hs & [= <-]).
      destruct (dur_write_ok secs s n Wf Hs) as (t & C & B & W). exists (VDur t).
      split; [now constructor|]. split; [now constructor|]. split; [exact W|cbn; lia].
    - (* option *)
      assert (K' : plain_keys E t') by (eapply plains_sub; [|exact K]; intros; now constructor).
      destruct f; try discriminate.
      + injection H as <-. exists VNone. split; [constructor|]. split; [constructor|].
        split; [reflexivity|cbn; lia].
      + apply bind_ok in H as (b & Hb & [= <-]).
        destruct (IH t' f b Hb) as (v & T & S1 & W & D); [|exact K'|].
        { eapply held_sub; [exact HP|]. cbn. intros u Hu; now right. }
        exists (VSome v). split; [now constructor|]. split; [now constructor|]. cbn [write]. rewrite W.
        split; [reflexivity|cbn [vdepth]; lia].
    - (* box *)
      assert (K' : plain_keys E t') by (eapply plains_sub; [|exact K]; intros; now constructor).
      destruct (IH t' f bs H HP K') as (v & T & S1 & W & D). exists (VBox v).
      split; [now constructor|]. split; [now constructor|]. cbn [write].
      split; [exact W|cbn [vdepth]; lia].
    - (* vec *)
      assert (K' : plain_keys E t') by (eapply plains_sub; [|exact K]; intros; now constructor).
      destruct (is_byte t') eqn:U; destruct f; try discriminate.
      + apply is_byte_true in U as ->. apply bind_ok in H as (hd & Hh & [= <-]).
        apply put_slen_len in Hh. exists (VSeq (map byte_val s)). split; [|split; [constructor|split]].
        * constructor. apply Forall_forall. intros x Hx. apply in_map_iff in Hx as (b & <- & _).
          constructor. cbn [wbytes]. rewrite modulus_1. pose proof (b2n_lt b). lia.
        * cbn [write]. rewrite map_length, write_bytes.
          rewrite Hh. reflexivity.
        * cbn [vdepth]. assert (list_max (map vdepth (map byte_val s)) <= 1)%nat; [|lia].
          apply list_max_le. apply Forall_forall. intros x Hx. apply in_map_iff in Hx as (y & <- & Hy).
          apply in_map_iff in Hy as (b & <- & _). cbn. lia.
      + apply bind_ok in H as (hd & Hh & H). apply bind_ok in H as (b & Hb & [= <-]).
        destruct (from_list d t' vs IH K') with (bs := b) as (us & T & S1 & W & D); [|exact Hb|].
        { intros g I. apply (held_list Sw (SArr vs) vs); auto. }
        exists (VSeq us). split; [now constructor|]. apply is_byte_false in U.
        split; [now constructor|]. cbn [write]. rewrite (Forall2_len _ _ _ S1).
        apply put_slen_len in Hh. rewrite Hh, W.
        split; [reflexivity|cbn [vdepth]; lia].
    - (* map *)
      assert (Kk : plain_keys E tk) by (eapply plains_sub; [|exact K]; intros; now apply uses_key).
      assert (Kv : plain_keys E tv) by (eapply plains_sub; [|exact K]; intros; now apply uses_val).
      destruct f; try discriminate.
      apply bind_ok in H as (hd & Hh & H). apply bind_ok in H as (b & Hb & [= <-]).
      destruct (from_pairs d tk tv kvs IH Kk Kv) with (bs := b) as (us & T1 & T2 & S1 & S2 & W & D); [|exact Hb|].
      { intros [k v] I. cbn [fst snd]. split; (eapply held_sub; [exact HP|]); intros h Hh'; cbn [ssubs];
          right; apply in_flat_map; exists (k, v); split; auto; apply in_app_iff; auto. }
      exists (VMap us).
      assert (ND : NoDup (map fst us)).
      { eapply (Forall2_nodup (same from_swift E tk)); [|exact (Forall2_fst (same from_swift E tk) us kvs S1)|eapply NoDup_map_inv, Wf]. intros a c c' A B.
        exact (same_fun from_swift E a tk c c' (K _ (uses_refl _ _)) A B). }
      split; [now constructor|]. split; [now constructor|].
      cbn [write]. rewrite (Forall2_len _ _ _ S1).
      apply put_slen_len in Hh. rewrite Hh, W.
      split; [reflexivity|cbn [vdepth]; lia].
    - (* set *)
      assert (K' : plain_keys E t') by (eapply plains_sub; [|exact K]; intros; now constructor).
      destruct f; try discriminate.
      apply bind_ok in H as (hd & Hh & H). apply bind_ok in H as (b & Hb & [= <-]).
      destruct (from_list d t' vs IH K') with (bs := b) as (us & T & S1 & W & D); [|exact Hb|].
      { intros g I. apply (held_list Sw (SSet vs) vs); auto. }
      exists (VSet us).
      assert (ND : NoDup us).
      { eapply Forall2_nodup; [|exact S1|eapply NoDup_map_inv, Wf]. intros a c c' A B.
        exact (same_fun from_swift E a t' c c' (K _ (uses_refl _ _)) A B). }
      split; [now constructor|]. split; [now constructor|].
      cbn [write]. rewrite (Forall2_len _ _ _ S1).
      apply put_slen_len in Hh. rewrite Hh, W.
      split; [reflexivity|cbn [vdepth]; lia].
    - destruct (defs E n) as [[ts|ne variants|k r| |b]|] eqn:DN; try discriminate.
      + destruct f; try discriminate. 
        destruct (from_fields d ts IH) with (fs := vs) (bs := bs) as (us & T & S1 & W & D); auto.
        { apply Forall_forall. intros t It. eapply plains_sub; [|exact K]. intros; eapply uses_field; eauto. }
        { intros g I. apply (held_list Sw (SStruct vs) vs); auto. }
        exists (VRec us). split; [econstructor; eauto|]. split; [econstructor; eauto|].
        rewrite write_rec, DN. split; [exact W|cbn [vdepth]; lia].
      + destruct f; try discriminate. 
        destruct (nth_error variants i) as [ts|] eqn:DV; [|discriminate].
        destruct (Z.ltb_spec (Z.of_nat i) i32_max); [|discriminate].
        apply bind_ok in H as (b & Hb & [= <-]).
        destruct (from_fields d ts IH) with (fs := vs) (bs := b) as (us & T & S1 & W & D); auto.
        { apply Forall_forall. intros t It. eapply plains_sub; [|exact K].
          intros; eapply uses_variant; eauto using nth_error_In. }
        { intros g I. apply (held_list Sw (SCase i vs) vs); auto. }
        exists (VEnum i us). split; [econstructor; eauto|]. split; [econstructor; eauto|].
        rewrite write_enum, DN, DV, W. split; [reflexivity|cbn [vdepth]; lia].
      + destruct f; try discriminate; destruct Wf.
      + destruct f; try discriminate.
        destruct (int_of false W64 handle) eqn:I; [|discriminate]. injection H as <-.
        apply int_of_spec in I. exists (VObj handle). split; [now constructor|]. split; [now constructor|].
        cbn [write]. rewrite DN. split; [reflexivity|cbn; lia].
      + assert (K' : plain_keys E b) by (eapply plains_sub; [|exact K]; intros; eapply uses_builtin; eauto).
        destruct (IH b f bs H HP K') as (v & T & S1 & W & D). exists (VCustom n v).
        split; [exact (ht_custom E n b v DN T)|]. split; [econstructor; eauto|]. cbn [write].
        rewrite DN, String.eqb_refl. split; [exact W|cbn [vdepth]; lia].
  Qed.
End FromSwift.

Theorem swift_to_rust W E d t s bs :
  swrite E d t s = Ok bs -> held W s -> plain_keys E t ->
  exists v, has_type E t v /\ same from_swift E t v s /\ write E t v = Ok bs /\
            (all_carried E v -> rust_reads E t bs v).
Proof.
  intros H P K. destruct (swrite_understood W E d t s bs H P K) as (v & T & S & Wr & D).
  exists v. split; [exact T|]. split; [exact S|]. split; [exact Wr|].
  intros C d' rest Hd. exact (read_write E v t bs rest d' T C Wr Hd).
Qed.

(** * Both sides write the same bytes *)

Lemma date_exact x s : - 2 ^ 52 <= s <= 2 ^ 52 -> since1970 x = units s ->
  date_write x = Ok ((if 0 <=? ns s then 1 else -1) * (Z.abs (ns s) / 1000000000), Z.abs (ns s) mod 1000000000).
Proof.
  intros B Q. unfold since1970, units in Q. unfold ns.
  replace x with ((s - 978307200) * one) by lia. rewrite date_write_whole by exact B.
  replace (Z.abs (s * 1000000000)) with (Z.abs s * 1000000000) by lia.
  rewrite Z.div_mul, Z.mod_mul by lia. do 2 f_equal.
  destruct (Z.leb_spec 0 (s * 1000000000)); lia.
Qed.
Lemma dur_exact s : 0 <= s <= 2 ^ 52 ->
  dur_write (units s) = Ok (ns s / 1000000000, ns s mod 1000000000).
Proof.
  intros B. unfold units, ns. rewrite dur_write_whole by exact B.
  now rewrite Z.div_mul, Z.mod_mul by lia.
Qed.

Section Exact.
  Variable E : env.

  Definition goal_exact (v : val) : Prop := forall t f bs d,
    same exactly E t v f -> has_type E t v -> no_flat v ->
    write E t v = Ok bs -> (vdepth v <= d)%nat -> swrite E d t f = Ok bs.

  Lemma swrite_fields d ts vs ss :
    Forall goal_exact vs -> sames exactly E ts vs ss -> Forall2 (has_type E) ts vs ->
    (forall v, In v vs -> no_flat v /\ (vdepth v <= d)%nat) ->
    forall bs, write_fields E ts vs = Ok bs -> swrite_all (swrite E d) ts ss = Ok bs.
  Proof.
    intros HG HS. revert HG. induction HS as [|t ts v vs f ss HS1 HS IH];
      intros HG HT HI bs HW; cbn [write_fields swrite_all] in *.
    - exact HW.
    - apply bind_ok in HW as (a & Ha & HW). apply bind_ok in HW as (b & Hb & [= <-]).
      inversion HG as [|? ? G1 G2]; inversion HT as [|? ? ? ? T1 T2]; subst.
      destruct (HI v (or_introl eq_refl)) as [N D].
      rewrite (G1 t f a d HS1 T1 N Ha D). cbn [bind].
      rewrite (IH G2 T2) with (bs := b) by (try exact Hb; intros u Hu; apply HI; right; exact Hu). reflexivity.
  Qed.

  Theorem swrite_exact v : goal_exact v.
  Proof.
    unfold goal_exact.
    induction v using val_ind'; intros ty f bs [|d] HS HT HN HW HD; cbn [vdepth] in HD;
      try lia; inversion HS; subst; clear HS; cbn [swrite].
    - cbn in HW. injection HW as <-.
      rewrite int_of_true; [reflexivity|]. destruct sg; inversion HT; subst; assumption.
    - inversion HT; subst. cbn in HW. injection HW as <-.
      destruct (Z.leb_spec 0 z); [|lia]. destruct (Z.ltb_spec z (modulus (if d0 then 8 else 4)%nat)); [|lia].
      reflexivity.
    - cbn in HW. exact HW.
    - cbn [write] in HW. unfold write_str in HW. apply bind_ok in HW as (hd & Hh & [= <-]).
      apply put_len_ok in Hh as [-> HL]. now rewrite put_slen_fits.
    - cbn [write] in HW. unfold write_time in HW.
      destruct (Z.leb_spec (Z.abs t / nanos_per_sec) i64_max) as [Lm|]; [|discriminate].
      injection HW as <-. match goal with X : m_time exactly t x |- _ => destruct X as (s & B & -> & Q) end.
      rewrite (date_exact x s B Q). reflexivity.
    - cbn [write] in HW. unfold write_dur in HW. injection HW as <-. inversion HT; subst.
      match goal with X : m_dur exactly t x |- _ => destruct X as (s & B & -> & ->) end.
      rewrite (dur_exact s B). reflexivity.
    - cbn in HW. exact HW.
    - cbn [write] in HW. apply bind_ok in HW as (b & Hb & [= <-]). inversion HT; subst.
      rewrite (IHv t s b d); auto; [|lia]. eapply no_flat_sub; [exact HN|]. cbn. intros u Hu; now right.
    - inversion HT; subst. cbn [write] in HW.
      apply (IHv t f bs d); auto; [|lia]. eapply no_flat_sub; [exact HN|]. cbn. intros u Hu; now right.
    - cbn [write] in HW. rewrite map_length in HW. apply bind_ok in HW as (hd & Hh & HW).
      change (map (fun b => VInt (Z.of_N (b2n b))) bs0) with (map byte_val bs0) in HW.
      rewrite write_bytes in HW. cbn [bind] in HW. injection HW as <-.
      apply put_len_ok in Hh as [-> HL]. cbn [is_byte]. now rewrite put_slen_fits.
    - cbn [write] in HW. apply bind_ok in HW as (hd & Hh & HW). apply bind_ok in HW as (b & Hb & [= <-]).
      apply put_len_ok in Hh as [-> HL].
      match goal with X : _ <> TInt false W8 |- _ => apply is_byte_false in X; rewrite X end.
      inversion HT; subst.
      match goal with X : Forall (has_type E t) vs |- _ => rename X into HTs end.
      match goal with X : Forall2 (same exactly E t) vs ss |- _ => rename X into HSs end.
      rewrite <- (Forall2_len _ _ _ HSs), put_slen_fits by assumption. cbn [bind].
      rewrite (cat_res_map2 (write E t) (swrite E d t) vs ss) with (b := b); [reflexivity| |exact Hb].
      refine (Forall2_impl2 _ _ _ _ _ (Forall2_and_l _ _ _ _ H (Forall2_and_l _ _ _ _ HTs
                (Forall2_and_l _ _ _ _ (Forall_in vs) HSs)))).
      cbn beta. intros v g (G & T & I & S1) b' Hb'. apply (G t g b' d); auto.
      + apply (no_flat_list vs (VSeq vs)); auto.
      + assert (vdepth v <= list_max (map vdepth vs))%nat by (apply list_max_in, in_map, I). lia.
    - cbn [write] in HW. apply bind_ok in HW as (hd & Hh & HW). apply bind_ok in HW as (b & Hb & [= <-]).
      apply put_len_ok in Hh as [-> HL].
      inversion HT; subst.
      match goal with X : Forall (fun p => has_type E tk (fst p)) kvs |- _ => rename X into HTk end.
      match goal with X : Forall (fun p => has_type E tv (snd p)) kvs |- _ => rename X into HTv end.
      match goal with X : Forall2 (fun p q => same exactly E tk (fst p) (fst q)) kvs skvs |- _ => rename X into HSk end.
      match goal with X : Forall2 (fun p q => same exactly E tv (snd p) (snd q)) kvs skvs |- _ => rename X into HSv end.
      rewrite <- (Forall2_len _ _ _ HSk), put_slen_fits by assumption. cbn [bind].
      match goal with |- (let* b := cat_res (map ?g skvs) in _) = _ =>
        match type of Hb with cat_res (map ?h kvs) = _ =>
          rewrite (cat_res_map2 h g kvs skvs) with (b := b); [reflexivity| |exact Hb] end end.
      refine (Forall2_impl2 _ _ _ _ _ (Forall2_and_l _ _ _ _ H (Forall2_and_l _ _ _ _ HTk (Forall2_and_l _ _ _ _ HTv
                (Forall2_and_l _ _ _ _ (Forall_in kvs) (Forall2_both _ _ _ _ HSk HSv)))))).
      cbn beta. intros [k v] [k' v'] ((Gk & Gv) & Tk & Tv & I & Sk & Sv) b' Hb'.
      cbn [fst snd] in *.
      apply bind_ok in Hb' as (bk & Hk & Hb'). apply bind_ok in Hb' as (bv & Hv & [= <-]).
      assert (M : (Nat.max (vdepth k) (vdepth v) <= list_max (map (fun p => Nat.max (vdepth (fst p)) (vdepth (snd p))) kvs))%nat).
      { apply list_max_in. apply in_map_iff. exists (k, v). auto. }
      assert (SB : forall u, incl (subvals u) (subvals k ++ subvals v) -> no_flat u).
      { intros u Hu. eapply no_flat_sub; [exact HN|]. intros w Hw. cbn [subvals]. right.
        apply in_flat_map. exists (k, v). split; [exact I|]. apply Hu, Hw. }
      rewrite (Gk tk k' bk d); auto; [| |lia]. 2: { apply SB. intros w Hw. apply in_app_iff; auto. }
      cbn [bind]. rewrite (Gv tv v' bv d); auto; [|lia]. apply SB. intros w Hw. apply in_app_iff; auto.
    - cbn [write] in HW. apply bind_ok in HW as (hd & Hh & HW). apply bind_ok in HW as (b & Hb & [= <-]).
      apply put_len_ok in Hh as [-> HL].
      inversion HT; subst.
      match goal with X : Forall (has_type E t) vs |- _ => rename X into HTs end.
      match goal with X : Forall2 (same exactly E t) vs ss |- _ => rename X into HSs end.
      rewrite <- (Forall2_len _ _ _ HSs), put_slen_fits by assumption. cbn [bind].
      rewrite (cat_res_map2 (write E t) (swrite E d t) vs ss) with (b := b); [reflexivity| |exact Hb].
      refine (Forall2_impl2 _ _ _ _ _ (Forall2_and_l _ _ _ _ H (Forall2_and_l _ _ _ _ HTs
                (Forall2_and_l _ _ _ _ (Forall_in vs) HSs)))).
      cbn beta. intros v g (G & T & I & S1) b' Hb'. apply (G t g b' d); auto.
      + apply (no_flat_list vs (VSet vs)); auto.
      + assert (vdepth v <= list_max (map vdepth vs))%nat by (apply list_max_in, in_map, I). lia.
    - rewrite write_rec in HW. match goal with X : defs E n = _ |- _ => rewrite X in *; rename X into HD1 end.
      inversion HT; subst. rewrite HD1 in *.
      match goal with X : Some _ = Some _ |- _ => injection X as <- end.
      apply (swrite_fields d ts vs ss); auto.
      intros v I. split; [apply (no_flat_list vs (VRec vs)); auto|].
      assert (vdepth v <= list_max (map vdepth vs))%nat by (apply list_max_in, in_map, I). lia.
    - rewrite write_enum in HW. match goal with X : defs E n = _ |- _ => rewrite X in *; rename X into HD1 end.
      match goal with X : nth_error variants i = _ |- _ => rewrite X in *; rename X into HD2 end.
      inversion HT; subst. match goal with X : defs E n = _ |- _ => rewrite HD1 in X end.
      match goal with X : Some _ = Some _ |- _ => injection X as <- <- end.
      match goal with X : nth_error variants i = _ |- _ => rewrite HD2 in X; injection X as <- end.
      apply bind_ok in HW as (fb & HW & [= <-]).
      destruct (Z.ltb_spec (Z.of_nat i) i32_max); [|lia].
      rewrite (swrite_fields d ts vs ss) with (bs := fb); auto.
      intros v I. split; [apply (no_flat_list vs (VEnum i vs)); auto|].
      assert (vdepth v <= list_max (map vdepth vs))%nat by (apply list_max_in, in_map, I). lia.
    - exfalso. apply (HN i m). cbn; auto.
    - cbn [write] in HW. match goal with X : defs E n = _ |- _ => rewrite X in *; rename X into HD1 end.
      inversion HT; subst. injection HW as <-.
      now rewrite int_of_true.
    - cbn [write] in HW. match goal with X : defs E _ = Some (DCustom _) |- _ => rewrite X in *; rename X into HD1 end.
      rewrite String.eqb_refl in HW.
      inversion HT; subst. match goal with X : defs E _ = _, Y : defs E _ = _ |- _ => rewrite X in Y end.
      match goal with X : Some _ = Some _ |- _ => injection X as <- end.
      apply (IHv b f bs d); auto; [|lia]. eapply no_flat_sub; [exact HN|]. cbn. intros u Hu; now right.
  Qed.
End Exact.

Theorem swift_round_trip W E v t bs :
  has_type E t v -> plain_keys E t -> apart W v -> no_flat v -> whole v -> write E t v = Ok bs ->
  exists s, same exactly E t v s /\ swift_reads W E t (vdepth v) bs s /\
            forall d, (vdepth v <= d)%nat -> swrite E d t s = Ok bs.
Proof.
  intros T P A N Wh Wr. destruct (counterpart E v t T) as [s S]. exists s.
  assert (S' : same exactly E t v s) by exact (same_mono computed exactly E v t s S (computed_exact v Wh)).
  split; [exact S'|]. split.
  - intros d rest D. refine (sread_write W E v t s bs rest d S T _ A P Wr D).
    intros x I. destruct (Wh x (or_introl I)) as (k & B & ->). unfold ns. lia.
  - intros d D. exact (swrite_exact E v t s bs d S' T N Wr D).
Qed.
