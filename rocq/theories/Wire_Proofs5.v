(** The statements of Wire_Props.v, assembled from the lemmas. *)
From Coq Require Import Sorting.Permutation.
From Verif Require Import Base Utf8 Wire_Model Wire_Spec Wire_Proofs Wire_Proofs2 Wire_Proofs3
  Wire_Proofs4 Wire_Examples.
Local Open Scope Z_scope.

Lemma buffer_roundtrip E t v bs :
  has_type E t v -> all_carried E v -> lower_buffer E t v = Ok bs ->
  lift_buffer E (vdepth v) t bs = Ok v.
Proof.
  intros T C W. unfold lift_buffer. rewrite <- (app_nil_r bs).
  rewrite (read_write E v t bs [] (vdepth v) T C W) by lia. reflexivity.
Qed.

Lemma writer_accepts E t v :
  has_type E t v -> (forall u, In u (subvals v) -> ~ unwritable u) ->
  exists bs, write E t v = Ok bs.
Proof.
  intros T N. destruct (write_cases E v t T) as (P & PE & PD).
  destruct (write E t v); try congruence; eauto.
  destruct (proj1 P eq_refl) as (u & Hu & B). exfalso. exact (N u Hu B).
Qed.

Lemma ex_node_panic_free : panic_free ex_env (TNamed "Node").
Proof.
  intros u U.
  apply (uses_closed ex_env [TNamed "Node"; TOption (TBox (TNamed "Node")); TBox (TNamed "Node"); TInt true W64])
    in U; [|vm_compute; reflexivity|cbn; auto]. cbn in U.
  destruct U as [<-|[<-|[<-|[<-|[]]]]]; (split; [discriminate|]); (split; [discriminate|]);
    intros n [= <-]; split; intros; vm_compute; discriminate.
Qed.

Lemma node_stack_exhausted d :
  exists bs, (length bs = 9 * d)%nat /\ read ex_env d (TNamed "Node") bs = Deep.
Proof.
  (* each level of the list takes three nested calls, so [d] levels are ample *)
  exists (List.concat (List.repeat (enc 8 0 ++ enc 1 1) d)). split.
  { induction d; cbn [List.repeat List.concat]; [reflexivity|].
    rewrite !app_length, !enc_length, IHd. lia. }
  assert (G : forall d k, (d <= k)%nat ->
    read ex_env d (TNamed "Node") (List.concat (List.repeat (enc 8 0 ++ enc 1 1) k)) = Deep).
  { clear d. induction d as [d IH] using lt_wf_ind. intros k Hk.
    destruct d as [|d]; [reflexivity|]. destruct k as [|k]; [lia|].
    cbn [List.repeat List.concat]. cbn [read]. change (defs ex_env "Node") with (Some (DRecord [TInt true W64; TOption (TBox (TNamed "Node"))])).
    cbn [read_all]. destruct d as [|d]; [reflexivity|]. cbn [read].
    rewrite <- app_assoc. cbn [wbytes]. rewrite get_checked_enc. cbn [bind].
    rewrite get_checked_enc. cbn [bind]. rewrite (proj2 dec_s_cons_01). cbn [Z.eqb Pos.eqb].
    destruct d as [|d]; [reflexivity|]. cbn [read].
    rewrite IH by lia. reflexivity. }
  apply G. lia.
Qed.

Lemma duration_panics E d bs :
  read E (S d) TDuration bs = Panic <->
  exists s n r, bs = enc 8 s ++ enc 4 n ++ r /\ 0 <= s < modulus 8 /\ 0 <= n < modulus 4 /\
                modulus 8 <= s + n / 1000000000.
Proof.
  rewrite <- read_dur_panic. cbn [read]. destruct (read_dur bs) as [[]| | |]; cbn; split; congruence.
Qed.

Lemma timestamp_panics E d bs :
  read E (S d) TTimestamp bs = Panic <->
  exists s n r, bs = enc 8 s ++ enc 4 n ++ r /\ - half 8 <= s < half 8 /\ 0 <= n < modulus 4 /\
     let t := if 0 <=? s then s * 1000000000 + n else s * 1000000000 - n in
     ~ (- half 8 <= t / 1000000000 < half 8).
Proof.
  rewrite <- read_time_panic. cbn [read]. destruct (read_time bs) as [[]| | |]; cbn; split; congruence.
Qed.

Lemma hostile_panics :
  (exists bs, forall E d, read E (S d) TDuration bs = Panic) /\
  (exists bs, forall E d, read E (S d) TTimestamp bs = Panic) /\
  (exists E n bs, forall d, read E (S d) (TNamed n) bs = Panic).
Proof.
  split; [|split].
  - exists (List.repeat xff 12). intros E d. vm_compute. reflexivity.
  - exists (x7f :: List.repeat xff 11). intros E d. vm_compute. reflexivity.
  - exists ex_env, "Error"%string, []. intros d. vm_compute. reflexivity.
Qed.

Lemma truncated_rejected E t v bs p x d :
  has_type E t v -> all_carried E v -> write E t v = Ok bs ->
  bs = p ++ x -> x <> [] ->
  forall v', lift_buffer E d t p <> Ok v'.
Proof.
  intros T C W EQ N v' H. unfold lift_buffer in H. apply bind_ok in H as ([v2 r] & R & H).
  destruct r; [|discriminate].
  pose proof (read_write E v t bs [] (vdepth v) T C W ltac:(lia)) as RW. rewrite app_nil_r in RW.
  exact (truncated_not_ok E t v bs p x (vdepth v) d [] v2 [] RW eq_refl EQ N R).
Qed.

Lemma truncated_is_error E t v bs p x d :
  has_type E t v -> all_carried E v -> write E t v = Ok bs ->
  (forall n k r, uses E t (TNamed n) -> defs E n <> Some (DFlat k r)) ->
  bs = p ++ x -> x <> [] -> (vdepth v <= d)%nat ->
  lift_buffer E d t p = Err.
Proof.
  intros T C W NF EQ N D.
  pose proof (read_write E v t bs [] d T C W D) as RW. rewrite app_nil_r in RW.
  exact (truncated_err E t v bs p x d NF RW EQ N).
Qed.

Lemma plain_carried E v : forall t, has_type E t v -> plain E t -> all_carried E v.
Proof.
  unfold all_carried. induction v using val_ind'; intros ty HT PL; inversion HT; subst; clear HT;
    try (intros u [<-|[]]; exact I).
  - exfalso. exact (PL _ (uses_refl _ _)).
  - intros u [<-|U]; [exact I|]. eapply IHv; eauto. intros w Hw. apply PL. now constructor.
  - intros u [<-|U]; [exact I|]. eapply IHv; eauto. intros w Hw. apply PL. now constructor.
  - intros u [<-|U]; [exact I|]. apply in_flat_map in U as (w & Hw & U).
    rewrite Forall_forall in *. eapply (H w Hw); eauto. intros z Hz. apply PL. now constructor.
  - exfalso. exact (PL _ (uses_refl _ _)).
  - exfalso. exact (PL _ (uses_refl _ _)).
  - intros u [<-|U]; [exact I|]. apply in_flat_map in U as (w & Hw & U).
    rewrite Forall_forall in H.
    assert (X : exists t, In t ts /\ has_type E t w).
    { clear - H3 Hw. induction H3; [destruct Hw|]. destruct Hw as [<-|Hw]; [eexists; cbn; eauto|].
      destruct (IHForall2 Hw) as (t & A & B). exists t. cbn. auto. }
    destruct X as (t & Ht & HT). eapply (H w Hw t HT); eauto. intros z Hz. apply PL. eapply uses_field; eauto.
  - intros u [<-|U]; [exact I|]. apply in_flat_map in U as (w & Hw & U).
    rewrite Forall_forall in H.
    assert (X : exists t, In t ts /\ has_type E t w).
    { clear - H6 Hw. induction H6; [destruct Hw|]. destruct Hw as [<-|Hw]; [eexists; cbn; eauto|].
      destruct (IHForall2 Hw) as (t & A & B). exists t. cbn. auto. }
    destruct X as (t & Ht & HT). eapply (H w Hw t HT); eauto.
    intros z Hz. apply PL. eapply uses_variant; eauto using nth_error_In.
  - exfalso. generalize (PL _ (uses_refl _ _)). cbn. rewrite H1. auto.
  - exfalso. generalize (PL _ (uses_refl _ _)). cbn.
    match goal with H : defs E n = _ |- _ => rewrite H end. auto.
Qed.

(** Typing of what is read, for plain types: no hypothesis on user code. *)
Lemma plain_typed E d : forall t, plain E t -> yields (read E d t) (has_type E t).
Proof.
  (* the custom and flat readers are unreachable, so switch them off *)
  set (E' := {| defs := defs E; clift := fun _ _ => Err; display := fun _ _ => [] |}).
  assert (RD : forall d t, plain E t -> forall bs, read E d t bs = read E' d t bs).
  { clear d. induction d as [|d IH]; intros t PL bs; [reflexivity|].
    assert (SUB : forall u, (forall w, uses E u w -> uses E t w) -> forall bs, read E d u bs = read E' d u bs).
    { intros u Hu. apply IH. intros w Hw. apply PL, Hu, Hw. }
    assert (REP : forall (p q : parser val) n bs, (forall bs, p bs = q bs) -> repeat_read p n bs = repeat_read q n bs).
    { intros p q n. induction n; intros b H; cbn [repeat_read]; [reflexivity|]. rewrite H.
      destruct (q b) as [[a r]| | |]; cbn [bind]; try reflexivity. now rewrite (IHn r H). }
    assert (ALL : forall ts bs, (forall u, In u ts -> forall w, uses E u w -> uses E t w) ->
       read_all (read E d) ts bs = read_all (read E' d) ts bs).
    { induction ts as [|u ts IHt]; intros b H; cbn [read_all]; [reflexivity|].
      rewrite (SUB u) by (apply H; cbn; auto).
      destruct (read E' d u b) as [[a r]| | |]; cbn [bind]; try reflexivity.
      rewrite IHt by (intros; apply (H u0); cbn; auto). reflexivity. }
    pose proof (PL t (uses_refl E t)) as HT.
    destruct t; cbn [read]; cbn in HT; try contradiction; try reflexivity.
    - destruct (get_checked 1 bs) as [[a r]| | |]; cbn [bind]; try reflexivity.
      rewrite SUB by (intros; now constructor). reflexivity.
    - rewrite SUB by (intros; now constructor). reflexivity.
    - destruct (get_len bs) as [[a r]| | |]; cbn [bind]; try reflexivity.
      rewrite (REP _ (read E' d t)); [reflexivity|]. apply SUB. intros; now constructor.
    - cbn [defs E']. destruct (defs E n) as [[ts|ne vs|k r'| |b]|] eqn:D; try contradiction; try reflexivity.
      + rewrite ALL; [reflexivity|]. intros. eapply uses_field; eauto.
      + destruct (get_checked 4 bs) as [[a r]| | |]; cbn [bind]; try reflexivity.
        destruct (dec_s a <? 1); [reflexivity|].
        destruct (nth_error vs (Z.to_nat (dec_s a - 1))) as [ts|] eqn:N; [|reflexivity].
        rewrite ALL; [reflexivity|]. intros. eapply uses_variant; eauto using nth_error_In. }
  assert (HTE : forall v t, has_type E' t v -> has_type E t v).
  { induction v using val_ind'; intros ty HT; inversion HT; subst; clear HT;
      try (econstructor; eauto; fail).
    - constructor. rewrite Forall_forall in *. auto.
    - constructor; [rewrite Forall_forall in *; intros p Hp; apply H; auto..|assumption].
    - constructor; [rewrite Forall_forall in *; auto|assumption].
    - econstructor; [eassumption|]. clear H1. revert H.
      induction H3; intros F; constructor; inversion F; subst; auto.
    - econstructor; [eassumption..|]. clear H2 H3. revert H.
      induction H6; intros F; constructor; inversion F; subst; auto. }
  intros t PL bs v r H. apply HTE. rewrite RD in H by exact PL.
  eapply (read_typed E' d); [| |exact H].
  - intros n b v0 v' _ _ X. discriminate.
  - intros n i. reflexivity.
Qed.

Lemma accepts_exactly E t : plain E t ->
  forall bs v, (exists d, lift_buffer E d t bs = Ok v) <-> (has_type E t v /\ lower_buffer E t v = Ok bs).
Proof.
  intros PL bs v. split.
  - intros (d & H). unfold lift_buffer in H. apply bind_ok in H as ([v2 r] & R & H).
    destruct r; [|discriminate]. injection H as ->.
    split; [eapply plain_typed; eauto|].
    destruct (canon_read E d t PL _ _ _ R) as (u & W & ->). now rewrite app_nil_r.
  - intros [T W]. exists (vdepth v). apply buffer_roundtrip; auto. eapply plain_carried; eauto.
Qed.

Lemma ex_shape_plain : plain ex_env (TNamed "Shape").
Proof.
  intros u U.
  apply (uses_closed ex_env [TNamed "Shape"; TNamed "Point"; TFloat true; TVec (TInt false W8);
     TInt false W8; TInt true W32; TOption TString; TString])
    in U; [|vm_compute; reflexivity|cbn; auto].
  cbn in U. in_cases; vm_compute; exact I.
Qed.

Lemma timestamp_roundtrip E t d rest bs :
  - half 8 <= t / 1000000000 < half 8 -> ~ (-1000000000 < t < 0) ->
  write E TTimestamp (VTime t) = Ok bs -> read E (S d) TTimestamp (bs ++ rest) = Ok (VTime t, rest).
Proof.
  intros R N W. apply read_write; auto.
  - now constructor.
  - intros u [<-|[]]. exact N.
  - cbn. lia.
Qed.

Lemma timestamp_mirrored E t d rest : -1000000000 < t < 0 ->
  exists bs, write E TTimestamp (VTime t) = Ok bs /\
             read E (S d) TTimestamp (bs ++ rest) = Ok (VTime (- t), rest) /\ - t <> t.
Proof.
  intros H. destruct (time_mirrored t rest H) as (bs & W & R). exists bs.
  split; [exact W|]. split; [|lia]. cbn [read]. now rewrite R.
Qed.

Lemma length_prefix E t v bs : write E t v = Ok bs ->
  match v with
  | VStr s => bs = enc 4 (Z.of_nat (length s)) ++ s /\ Z.of_nat (length s) < half 4
  | VSeq vs | VSet vs => Z.of_nat (length vs) < half 4 /\ exists b, bs = enc 4 (Z.of_nat (length vs)) ++ b
  | VMap kvs => Z.of_nat (length kvs) < half 4 /\ exists b, bs = enc 4 (Z.of_nat (length kvs)) ++ b
  | _ => True
  end.
Proof.
  rewrite half_4. intros W. destruct v; try exact I; destruct t; cbn [write] in W; try discriminate.
  - unfold write_str in W. apply bind_ok in W as (h & P & W). injection W as <-.
    apply put_len_ok in P as [-> L]. unfold i32_max in L. split; [reflexivity|lia].
  - apply bind_ok in W as (h & P & W). apply bind_ok in W as (b & _ & W). injection W as <-.
    apply put_len_ok in P as [-> L]. unfold i32_max in L. split; [lia|eauto].
  - apply bind_ok in W as (h & P & W). apply bind_ok in W as (b & _ & W). injection W as <-.
    apply put_len_ok in P as [-> L]. unfold i32_max in L. split; [lia|eauto].
  - apply bind_ok in W as (h & P & W). apply bind_ok in W as (b & _ & W). injection W as <-.
    apply put_len_ok in P as [-> L]. unfold i32_max in L. split; [lia|eauto].
Qed.

Lemma negative_length E d t n rest :
  match t with TString | TVec _ | TMap _ _ | TSet _ => True | _ => False end ->
  - half 4 <= n < 0 -> read E (S d) t (enc 4 n ++ rest) = Err.
Proof.
  intros T R. assert (G : get_len (enc 4 n ++ rest) = Err).
  { unfold get_len. rewrite get_checked_enc. cbn [bind].
    rewrite half_4 in R. rewrite dec_s_enc by (rewrite ?half_4; lia).
    destruct (Z.ltb_spec n 0); [reflexivity|lia]. }
  destruct t; try contradiction; cbn [read]; unfold read_str; now rewrite G.
Qed.

Lemma write_fields_concat E ts vs bss : length ts = length vs ->
  Forall2 (fun tv b => write E (fst tv) (snd tv) = Ok b) (combine ts vs) bss ->
  write_fields E ts vs = Ok (concat bss).
Proof.
  revert vs bss. induction ts as [|t ts IH]; intros [|v vs] bss L F; try discriminate; cbn in F.
  - inversion F. reflexivity.
  - inversion F; subst. cbn [fst snd] in *. cbn [write_fields concat].
    match goal with H : write E t v = _ |- _ => rewrite H end. cbn [bind].
    rewrite (IH vs l'); auto.
Qed.

Lemma enum_accepts E n ne variants i ts vs bss rest d :
  defs E n = Some (DEnum ne variants) -> nth_error variants i = Some ts -> Z.of_nat i < i32_max ->
  Forall2 (has_type E) ts vs -> Forall (all_carried E) vs ->
  Forall (fun v => (vdepth v <= d)%nat) vs ->
  Forall2 (fun tv b => write E (fst tv) (snd tv) = Ok b) (combine ts vs) bss ->
  read E (S d) (TNamed n) (enc 4 (Z.of_nat i + 1) ++ concat bss ++ rest) = Ok (VEnum i vs, rest).
Proof.
  intros D N B T C DP W. rewrite app_assoc. apply read_write.
  - econstructor; eauto.
  - intros u [<-|U]; [exact I|]. apply in_flat_map in U as (w & Hw & U).
    rewrite Forall_forall in C. exact (C w Hw u U).
  - rewrite write_enum, D, N. rewrite (write_fields_concat E ts vs bss); [reflexivity| |exact W].
    clear - T. induction T; cbn; congruence.
  - cbn [vdepth]. apply le_n_S. apply list_max_le. rewrite Forall_forall in *.
    intros k Hk. apply in_map_iff in Hk as (w & <- & Hw). auto.
Qed.

Lemma flat_not_liftable E n k r i msg bs d :
  defs E n = Some (DFlat k r) -> has_type E (TNamed n) (VFlat i msg) ->
  write E (TNamed n) (VFlat i msg) = Ok bs ->
  forall v, lift_buffer E d (TNamed n) bs <> Ok v.
Proof.
  intros D T W v H. inversion T; subst.
  match goal with X : defs E n = Some (DFlat _ _) |- _ => rewrite D in X; injection X as <- <- end.
  cbn [write] in W. rewrite D in W. destruct (Nat.ltb_spec i k); [|lia].
  apply bind_ok in W as (b & S & W). injection W as <-. unfold write_str in S.
  apply bind_ok in S as (h & P & S). injection S as <-. apply put_len_ok in P as [-> L].
  unfold lift_buffer in H. destruct d as [|d]; [discriminate|]. cbn [read] in H. rewrite D in H.
  destruct r; [|discriminate]. unfold get_unchecked in H. rewrite split_n_app in H by apply enc_length.
  cbn [bind] in H. destruct ((1 <=? _) && _); [|discriminate]. cbn [bind] in H.
  destruct (enc 4 (Z.of_nat (length msg)) ++ msg) eqn:X; [|discriminate].
  apply app_eq_nil in X as [X _]. apply (f_equal (@List.length byte)) in X. rewrite enc_length in X. discriminate.
Qed.

Lemma flat_from_foreign E n k i d :
  defs E n = Some (DFlat k true) -> (i < k)%nat -> Z.of_nat i < i32_max ->
  lift_buffer E (S d) (TNamed n) (enc 4 (Z.of_nat i + 1)) = Ok (VFlat i (display E n i)).
Proof.
  unfold i32_max. intros D L B. unfold lift_buffer. cbn [read]. rewrite D. unfold get_unchecked.
  rewrite <- (app_nil_r (enc 4 _)), split_n_app by apply enc_length. cbn [bind].
  rewrite dec_s_enc by (rewrite ?half_4; lia).
  destruct (Z.leb_spec 1 (Z.of_nat i + 1)); [|lia].
  destruct (Z.leb_spec (Z.of_nat i + 1) (Z.of_nat k)); [|lia]. cbn.
  replace (Z.to_nat (Z.of_nat i + 1 - 1)) with i by lia. reflexivity.
Qed.

Lemma last_wins E tk tv kvs bs rest d :
  Forall (fun p => has_type E tk (fst p) /\ has_type E tv (snd p) /\
                   all_carried E (fst p) /\ all_carried E (snd p) /\
                   (vdepth (fst p) <= d /\ vdepth (snd p) <= d)%nat) kvs ->
  write E (TMap tk tv) (VMap kvs) = Ok bs ->
  exists m, read E (S d) (TMap tk tv) (bs ++ rest) = Ok (VMap m, rest) /\
    NoDup (map fst m) /\ forall k, map_lookup k m = map_lookup k (rev kvs).
Proof.
  intros F W. exists (build_map kvs). split; [now apply read_map_any|].
  split; [apply build_map_is_nodup|apply build_map_lookup].
Qed.

Lemma map_order E tk tv kvs kvs' bs bs' rest d :
  has_type E (TMap tk tv) (VMap kvs) -> all_carried E (VMap kvs) -> (vdepth (VMap kvs) <= d)%nat ->
  Permutation kvs kvs' ->
  write E (TMap tk tv) (VMap kvs) = Ok bs -> write E (TMap tk tv) (VMap kvs') = Ok bs' ->
  exists m m', read E d (TMap tk tv) (bs ++ rest) = Ok (VMap m, rest) /\
    read E d (TMap tk tv) (bs' ++ rest) = Ok (VMap m', rest) /\
    Permutation m m' /\ forall k, map_lookup k m = map_lookup k m'.
Proof.
  intros T C D P W W'. exists kvs, kvs'.
  assert (X : Forall (fun p => has_type E tk (fst p)) kvs /\ Forall (fun p => has_type E tv (snd p)) kvs /\
              NoDup (map fst kvs)) by (inversion T; auto).
  destruct X as (T1 & T2 & ND).
  split; [now apply read_write|]. split.
  - apply read_write; auto.
    + constructor; [now rewrite <- P..|]. eapply Permutation_NoDup; [|exact ND]. now apply Permutation_map.
    + intros u [<-|U]; [exact I|]. apply C. cbn. right. rewrite in_flat_map in *.
      destruct U as (p & Hp & U). exists p. split; [|exact U].
      apply Permutation_sym in P. eapply Permutation_in; eauto.
    + cbn [vdepth] in *. destruct d as [|d]; [lia|]. apply le_n_S. apply le_S_n in D.
      apply list_max_le. apply list_max_le in D. rewrite <- P. exact D.
  - split; [exact P|]. intros k. now apply map_lookup_perm.
Qed.

Lemma set_members E t vs bs rest d :
  Forall (fun v => has_type E t v /\ all_carried E v /\ (vdepth v <= d)%nat) vs ->
  write E (TSet t) (VSet vs) = Ok bs ->
  exists s, read E (S d) (TSet t) (bs ++ rest) = Ok (VSet s, rest) /\
    NoDup s /\ forall x, In x s <-> In x vs.
Proof.
  intros F W. exists (build_set vs). split; [now apply read_set_any|]. apply build_set_spec.
Qed.
