(** The last steps towards the statements of [Meta_Props]. *)
From Verif Require Import Base Utf8 Meta_Types Meta_Model Meta_Spec Meta_Proofs Meta_Proofs2
  Meta_Proofs3 Meta_Examples.
Open Scope Z_scope.

Lemma read_back d omp m b :
  recordable d m -> utf8 omp -> write omp m = Some b ->
  exists m', read d b = Ok (m', []) /\ no_checksum m' = no_checksum m.
Proof.
  intros R U W. destruct (write_read d omp m b [] R U W) as (m' & E & N & _).
  rewrite app_nil_r in E. eauto.
Qed.

Lemma trailing d omp m b :
  recordable d m -> utf8 omp -> write omp m = Some b ->
  exists m', no_checksum m' = no_checksum m /\ forall rest, read d (b ++ rest) = Ok (m', rest).
Proof.
  intros R U W. destruct (read_back d omp m b R U W) as (m' & E & N). exists m'. split; auto.
  destruct (read_good _ _ _ _ E) as (q & Q & H). rewrite app_nil_r in Q. subst q. exact H.
Qed.

Lemma never_panics_refuted : exists d data, (length data < d)%nat /\ read d data = Panic.
Proof. exists 8%nat, [x00; x05; x61]. split; [cbn; lia|apply ex_panic]. Qed.

Lemma never_overflows_refuted : forall d, exists data, read d data = Deep.
Proof. intros d. eexists. apply deep_item. Qed.

Lemma padded_total d data n :
  65535 <= Z.of_nat n -> (length data + n < d)%nat ->
  read d (data ++ repeat x00 n) = Err \/ exists m rest, read d (data ++ repeat x00 n) = Ok (m, rest).
Proof.
  intros L D. destruct (read d (data ++ repeat x00 n)) as [[m r]| | |] eqn:E.
  - right. eauto.
  - auto.
  - exfalso. eapply padded_no_panic; eauto.
  - exfalso. apply read_deep in E. rewrite app_length, repeat_length in E. lia.
Qed.

Lemma long_name cs s : In (CStr s) cs -> 256 <= Z.of_nat (length s) -> exec cs = None.
Proof.
  intros I L. destruct (exec cs) as [b|] eqn:E; auto. apply exec_some in E as [K _].
  rewrite Forall_forall in K. specialize (K _ I). cbn [cok] in K. unfold size in K. lia.
Qed.

Lemma checksums_agree d omp m b rest :
  recordable d m -> utf8 omp -> has_checksum m -> write omp m = Some b ->
  exists m', read d (b ++ rest) = Ok (m', rest) /\ item_checksum m' = scaffolding_checksum omp m.
Proof.
  intros R U H W. destruct (write_read d omp m b rest R U W) as (m' & E & _ & C).
  exists m'. split; auto. unfold scaffolding_checksum. rewrite W. auto.
Qed.

Lemma docstring_refuted :
  exists d f doc doc', recordable d (MFunc (set_doc doc f)) /\ recordable d (MFunc (set_doc doc' f)) /\
    exists c c', scaffolding_checksum [] (MFunc (set_doc doc f)) = Some c /\
                 scaffolding_checksum [] (MFunc (set_doc doc' f)) = Some c' /\ c <> c'.
Proof.
  exists 5%nat, ex_fn, (Some (S_ "Finds things.")), (Some (S_ "Finds things!")).
  destruct ex_fn_recordable as (A & B & C & D & E & F & _).
  split; [refine (conj A (conj B (conj C (conj D (conj E (conj F _)))))); split; [reflexivity|discriminate]|].
  split; [refine (conj A (conj B (conj C (conj D (conj E (conj F _)))))); split; [reflexivity|discriminate]|].
  do 2 eexists. split; [vm_compute; reflexivity|]. split; [vm_compute; reflexivity|]. discriminate.
Qed.

Lemma different_bytes d omp m b omp' m' b' r r' :
  recordable d m -> utf8 omp -> write omp m = Some b ->
  recordable d m' -> utf8 omp' -> write omp' m' = Some b' ->
  no_checksum m <> no_checksum m' -> b ++ r <> b' ++ r'.
Proof. intros R U W R' U' W' N E. apply N.
  destruct (write_inj d omp m omp' m' b r r' b' R U W R' U' W' E) as [H _]. exact H. Qed.

Lemma unreadable_default :
  exists f b, write [] (MFunc f) = Some b /\ forall d m r, read d b <> Ok (m, r).
Proof.
  exists ex_bad_default. eexists. split; [vm_compute; reflexivity|].
  intros [|d] m r H; vm_compute in H; discriminate.
Qed.
