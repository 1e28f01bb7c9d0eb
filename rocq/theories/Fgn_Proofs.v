(** Generic lemmas about the foreign readers and writers: everything is reduced to
    laws about the leaves. *)
From Verif Require Import Base Utf8 Utf8_Proofs Wire_Model Wire_Spec Wire_Proofs
  Fgn_Model Fgn_Spec.
Local Open Scope Z_scope.

(** * Induction and equality *)

Section FvalInd.
  Variable P : fval -> Prop.
  Hypothesis HInt : forall z, P (FInt z).
  Hypothesis HFloat : forall z, P (FFloat z).
  Hypothesis HBool : forall b, P (FBool b).
  Hypothesis HStr : forall s, P (FStr s).
  Hypothesis HBytes : forall s, P (FBytes s).
  Hypothesis HTime : forall t, P (FTime t).
  Hypothesis HDur : forall t, P (FDur t).
  Hypothesis HNone : P FNone.
  Hypothesis HSeq : forall vs, Forall P vs -> P (FSeq vs).
  Hypothesis HMap : forall kvs, Forall (fun p => P (fst p) /\ P (snd p)) kvs -> P (FMap kvs).
  Hypothesis HSet : forall vs, Forall P vs -> P (FSet vs).
  Hypothesis HRec : forall n vs, Forall P vs -> P (FRec n vs).
  Hypothesis HEnum : forall n i vs, Forall P vs -> P (FEnum n i vs).
  Hypothesis HFlat : forall n i m, P (FFlat n i m).
  Hypothesis HObj : forall n h, P (FObj n h).

  Fixpoint fval_ind' (v : fval) : P v :=
    let lst := (fix go (vs : list fval) : Forall P vs :=
                  match vs with
                  | [] => Forall_nil _
                  | x :: xs => Forall_cons _ (fval_ind' x) (go xs)
                  end) in
    match v with
    | FInt z => HInt z
    | FFloat z => HFloat z
    | FBool b => HBool b
    | FStr s => HStr s
    | FBytes s => HBytes s
    | FTime t => HTime t
    | FDur t => HDur t
    | FNone => HNone
    | FSeq vs => HSeq _ (lst vs)
    | FMap kvs =>
      HMap _ ((fix go (kvs : list (fval * fval)) : Forall (fun p => P (fst p) /\ P (snd p)) kvs :=
                 match kvs with
                 | [] => Forall_nil _
                 | p :: r => Forall_cons _ (conj (fval_ind' (fst p)) (fval_ind' (snd p))) (go r)
                 end) kvs)
    | FSet vs => HSet _ (lst vs)
    | FRec n vs => HRec n _ (lst vs)
    | FEnum n i vs => HEnum n i _ (lst vs)
    | FFlat n i m => HFlat n i m
    | FObj n h => HObj n h
    end.
End FvalInd.

Lemma list_N_eqb_eq a : forall b, list_N_eqb a b = true <-> a = b.
Proof.
  induction a as [|x a IH]; intros [|y b]; cbn; try (split; congruence).
  rewrite andb_true_iff, N.eqb_eq, IH. split; [intros [-> ->]; reflexivity|intros [= -> ->]; auto].
Qed.

Definition fvals_eqb : list fval -> list fval -> bool :=
  fix go (xs ys : list fval) {struct xs} : bool :=
    match xs, ys with
    | [], [] => true
    | x :: xs', y :: ys' => fval_eqb x y && go xs' ys'
    | _, _ => false
    end.

Lemma fval_eqb_eq a : forall b, fval_eqb a b = true <-> a = b.
Proof.
  assert (L : forall xs ys, Forall (fun x => forall y, fval_eqb x y = true <-> x = y) xs ->
              (fvals_eqb xs ys = true <-> xs = ys)).
  { intros xs ys H; revert ys; induction H as [|x xs Hx _ IH]; intros [|y ys]; cbn;
      try (split; congruence).
    rewrite andb_true_iff, Hx. fold (fvals_eqb xs ys). rewrite IH.
    split; [intros [-> ->]; reflexivity | intros [= -> ->]; auto]. }
  induction a using fval_ind'; intros []; cbn [fval_eqb]; try (split; congruence);
    try (fold fvals_eqb; rewrite L by assumption; split; congruence);
    try (rewrite Z.eqb_eq; split; congruence);
    try (rewrite list_N_eqb_eq; split; congruence);
    fold fvals_eqb.
  - rewrite Bool.eqb_true_iff. split; congruence.
  - destruct (bytes_eqb_spec s bs); split; congruence.
  - match goal with |- ?f kvs kvs0 = true <-> _ => set (go := f) end.
    assert (M : forall ys, go kvs ys = true <-> kvs = ys).
    { induction H as [|[k v] xs [Hk Hv] _ IH]; intros [|[k' v'] ys]; cbn;
        try (split; congruence).
      cbn in Hk, Hv. rewrite !andb_true_iff, Hk, Hv. fold go. rewrite IH.
      split; [intros [[-> ->] ->]; reflexivity | intros [= -> -> ->]; auto]. }
    rewrite M. split; congruence.
  - rewrite andb_true_iff, String.eqb_eq, L by assumption.
    split; [intros [-> ->]; reflexivity|intros [= -> ->]; auto].
  - rewrite !andb_true_iff, String.eqb_eq, Nat.eqb_eq, L by assumption.
    split; [intros [[-> ->] ->]; reflexivity|intros [= -> -> ->]; auto].
  - rewrite !andb_true_iff, String.eqb_eq, Nat.eqb_eq, list_N_eqb_eq.
    split; [intros [[-> ->] ->]; reflexivity|intros [= -> -> ->]; auto].
  - rewrite andb_true_iff, String.eqb_eq, Z.eqb_eq.
    split; [intros [-> ->]; reflexivity|intros [= -> ->]; auto].
Qed.

Lemma fval_eqb_neq a b : a <> b -> fval_eqb a b = false.
Proof.
  intros N. destruct (fval_eqb a b) eqn:X; [|reflexivity]. now apply fval_eqb_eq in X.
Qed.

Lemma fmap_insert_fresh k v m :
  ~ In k (map fst m) -> fmap_insert k v m = m ++ [(k, v)].
Proof.
  induction m as [|[k' v'] m IH]; cbn; intros N; [reflexivity|].
  rewrite fval_eqb_neq by tauto. now rewrite IH by tauto.
Qed.

Lemma fbuild_map_gen kvs : forall acc,
  NoDup (map fst acc ++ map fst kvs) ->
  fold_left (fun m p => fmap_insert (fst p) (snd p) m) kvs acc = acc ++ kvs.
Proof.
  induction kvs as [|[k v] kvs IH]; cbn [fold_left map fst snd]; intros acc ND.
  - now rewrite app_nil_r.
  - rewrite fmap_insert_fresh.
    + rewrite IH; [now rewrite <- app_assoc|].
      rewrite map_app, <- app_assoc. exact ND.
    + apply NoDup_remove_2 in ND. intros I. apply ND, in_app_iff. auto.
Qed.

Lemma fbuild_map_nodup kvs : NoDup (map fst kvs) -> fbuild_map kvs = kvs.
Proof. intros H. unfold fbuild_map. now rewrite fbuild_map_gen. Qed.

Lemma fset_insert_fresh x s : ~ In x s -> fset_insert x s = s ++ [x].
Proof.
  induction s as [|y s IH]; cbn; intros N; [reflexivity|].
  rewrite fval_eqb_neq by tauto. now rewrite IH by tauto.
Qed.

Lemma fbuild_set_gen vs : forall acc,
  NoDup (acc ++ vs) -> fold_left (fun s x => fset_insert x s) vs acc = acc ++ vs.
Proof.
  induction vs as [|v vs IH]; cbn [fold_left]; intros acc ND.
  - now rewrite app_nil_r.
  - rewrite fset_insert_fresh.
    + rewrite IH; [now rewrite <- app_assoc|]. rewrite <- app_assoc. exact ND.
    + apply NoDup_remove_2 in ND. intros I. apply ND, in_app_iff. auto.
Qed.

Lemma fbuild_set_nodup vs : NoDup vs -> fbuild_set vs = vs.
Proof. intros H. unfold fbuild_set. now rewrite fbuild_set_gen. Qed.

Lemma is_u8_true t : is_u8 t = true -> t = TInt false W8.
Proof. destruct t as [[] []| | | | | | | | | | |]; cbn; congruence. Qed.
Lemma is_u8_false t : is_u8 t = false <-> t <> TInt false W8.
Proof. destruct t as [[] []| | | | | | | | | | |]; cbn; split; congruence. Qed.

(** * Byte strings *)

Definition byte_val (b : byte) : val := VInt (Z.of_N (b2n b)).

Lemma dec_u_1 b : dec_u [b] = Z.of_N (b2n b).
Proof. destruct b; vm_compute; reflexivity. Qed.

Lemma write_bytes E bs : cat_res (map (write E (TInt false W8)) (map byte_val bs)) = Ok bs.
Proof.
  induction bs as [|b bs IH]; [reflexivity|].
  cbn [map cat_res]. rewrite IH. cbn [byte_val write wbytes bind].
  rewrite <- dec_u_1. change 1%nat with (length [b]). rewrite enc_dec_u. reflexivity.
Qed.

(** * Lists *)

Lemma repeat_read_cat2 {A B} (p : parser B) (w : A -> res bytes) vs fs :
  Forall2 (fun v f => forall b r, w v = Ok b -> p (b ++ r) = Ok (f, r)) vs fs ->
  forall b r, cat_res (map w vs) = Ok b -> repeat_read p (length vs) (b ++ r) = Ok (fs, r).
Proof.
  induction 1 as [|v f vs fs Hv _ IH]; cbn; intros b r H.
  - injection H as <-. reflexivity.
  - apply bind_ok in H as (a & Ha & H). apply bind_ok in H as (b' & Hb & [= <-]).
    rewrite <- app_assoc, (Hv _ _ Ha). cbn [bind]. now rewrite (IH _ _ Hb).
Qed.

Lemma Forall2_and_l {A B} (P : A -> Prop) (Q : A -> B -> Prop) l m :
  Forall P l -> Forall2 Q l m -> Forall2 (fun a b => P a /\ Q a b) l m.
Proof.
  intros H G; revert H; induction G as [|a b l m q G IH]; intros H; constructor;
    inversion H; subst; auto.
Qed.

Lemma Forall2_impl2 {A B} (P Q : A -> B -> Prop) l m :
  (forall a b, P a b -> Q a b) -> Forall2 P l m -> Forall2 Q l m.
Proof. intros I H; induction H; constructor; auto. Qed.

Lemma Forall2_both {A B} (P Q : A -> B -> Prop) l m :
  Forall2 P l m -> Forall2 Q l m -> Forall2 (fun a b => P a b /\ Q a b) l m.
Proof.
  intros H; induction H; intros G; constructor; inversion G; subst; auto.
Qed.

Lemma Forall_in {A} (l : list A) : Forall (fun a => In a l) l.
Proof. apply Forall_forall. auto. Qed.

(** * Rust to foreign *)

(** The sign and magnitude that Rust writes for an instant. *)
Definition t_secs (t : Z) : Z := (if 0 <=? t then 1 else -1) * (Z.abs t / 1000000000).
Definition t_nanos (t : Z) : Z := Z.abs t mod 1000000000.

Section ToForeign.
  Variable L : lang.
  Variable R : corr.
  Variable E : env.
  Hypothesis Hint : forall z, c_int R false W8 z -> u8_signed L = true -> z < 128.
  Hypothesis Hfloat : forall (d : bool) (z f : Z), 0 <= z < modulus (if d then 8 else 4)%nat ->
    c_float R d z f -> f_read L d z = f.
  Hypothesis Hbool : bool_of L 0 = Ok false /\ bool_of L 1 = Ok true.
  Hypothesis Hopt : opt_of L 0 = Ok false /\ opt_of L 1 = Ok true.
  Hypothesis Hstr : forall s cs, c_str R s cs -> s_read L s = Ok cs.
  Hypothesis Htime : forall t x, ~ (-1000000000 < t < 0) -> Z.abs t / 1000000000 <= i64_max ->
    c_time R t x -> t_read L (t_secs t) (t_nanos t) = Ok x.
  Hypothesis Hdur : forall t x, 0 <= t / 1000000000 < modulus 8 ->
    c_dur R t x -> d_read L (t / 1000000000) (t mod 1000000000) = Ok x.
  Hypothesis Hobj : forall h, c_obj R h -> h = 0 -> null_ok L = true.
  Hypothesis Hkey : forall f, c_key R f -> fhash L f = true.

  Lemma check_keys_ok ks : Forall (c_key R) ks -> check_keys L ks = Ok tt.
  Proof.
    intros H. unfold check_keys. replace (forallb (fhash L) ks) with true; [reflexivity|].
    symmetry. apply forallb_forall. rewrite Forall_forall in H. auto.
  Qed.

  Definition goal_to (v : val) : Prop := forall t f bs rest d,
    same R E t v f -> has_type E t v -> no_lost_instant v ->
    write E t v = Ok bs -> (vdepth v <= d)%nat ->
    fread L E d t (bs ++ rest) = Ok (f, rest).

  Lemma fread_fields d ts vs fs :
    Forall goal_to vs -> sames R E ts vs fs -> Forall2 (has_type E) ts vs ->
    (forall v, In v vs -> no_lost_instant v /\ (vdepth v <= d)%nat) ->
    forall bs rest, write_fields E ts vs = Ok bs ->
    read_all (fread L E d) ts (bs ++ rest) = Ok (fs, rest).
  Proof.
    intros HG HS. revert HG. induction HS as [|t ts v vs f fs HS1 HS IH];
      intros HG HT HI bs rest HW; cbn [write_fields read_all] in *.
    - injection HW as <-. reflexivity.
    - apply bind_ok in HW as (a & Ha & HW). apply bind_ok in HW as (b & Hb & [= <-]).
      inversion HG as [|? ? G1 G2]; inversion HT as [|? ? ? ? T1 T2]; subst.
      destruct (HI v (or_introl eq_refl)) as [N D].
      rewrite <- app_assoc, (G1 t f a (b ++ rest) d HS1 T1 N Ha D). cbn [bind].
      rewrite (IH G2 T2) by (try exact Hb; intros u Hu; apply HI; right; exact Hu). reflexivity.
  Qed.

  Lemma no_lost_sub v u : no_lost_instant v -> incl (subvals u) (subvals v) -> no_lost_instant u.
  Proof. intros H I t Ht. apply H, I, Ht. Qed.

  Lemma no_lost_list vs u v :
    subvals u = u :: flat_map subvals vs -> no_lost_instant u -> In v vs -> no_lost_instant v.
  Proof.
    intros X H Hv. eapply no_lost_sub; [exact H|]. intros w Hw. rewrite X. right.
    eapply in_flat_map_sub; eauto.
  Qed.

  Theorem fread_write v : goal_to v.
  Proof.
    unfold goal_to.
    induction v using val_ind'; intros ty f bs rest [|d] HS HT HN HW HD; cbn [vdepth] in HD;
      try lia; inversion HS; subst; clear HS; cbn [fread].
    - (* int *)
      cbn in HW. injection HW as <-. destruct sg; inversion HT; subst.
      + rewrite get_checked_enc. cbn [bind].
        rewrite dec_s_enc; [reflexivity|apply wbytes_pos|assumption].
      + rewrite get_checked_enc. cbn [bind].
        destruct w; try (rewrite dec_u_enc by assumption; reflexivity).
        destruct (u8_signed L) eqn:U; [|rewrite dec_u_enc by assumption; reflexivity].
        cbn [wbytes]. rewrite dec_s_enc; [reflexivity|lia|].
        match goal with X : c_int R false W8 z |- _ => pose proof (Hint z X eq_refl) end. rewrite half_1. lia.
    - inversion HT; subst. cbn in HW. injection HW as <-. rewrite get_checked_enc. cbn [bind].
      rewrite dec_u_enc by assumption. now rewrite (Hfloat d0 z f0).
    - cbn in HW. injection HW as <-. rewrite get_checked_enc. cbn [bind].
      destruct Hbool as [B0 B1]. rewrite dec_u_enc by (destruct b; vm_compute; split; congruence).
      destruct b; [rewrite B1|rewrite B0]; reflexivity.
    - cbn [write] in HW. unfold write_str in HW. apply bind_ok in HW as (hd & Hh & [= <-]).
      apply put_len_ok in Hh as [-> HL]. rewrite <- app_assoc, get_len_enc by assumption. cbn [bind].
      rewrite get_checked_app by reflexivity. cbn [bind]. rewrite (Hstr s cs); [reflexivity|assumption].
    - cbn [write] in HW. unfold write_time in HW.
      destruct (Z.leb_spec (Z.abs t / nanos_per_sec) i64_max) as [Lm|]; [|discriminate].
      injection HW as <-. rewrite get12. cbn [bind]. rewrite firstn_enc, skipn_enc.
      unfold nanos_per_sec in *.
      assert (0 <= Z.abs t / 1000000000) by (apply Z.div_pos; lia).
      pose proof (Z.mod_pos_bound (Z.abs t) 1000000000 ltac:(lia)).
      rewrite dec_s_enc; [|lia|unfold i64_max in Lm; rewrite half_8; destruct (0 <=? t); lia].
      rewrite dec_u_enc by (rewrite modulus_4; lia).
      fold (t_secs t). fold (t_nanos t). rewrite (Htime t x); auto.
      apply HN. cbn. auto.
    - cbn [write] in HW. unfold write_dur in HW. injection HW as <-. inversion HT; subst.
      rewrite get12. cbn [bind]. rewrite firstn_enc, skipn_enc. unfold nanos_per_sec.
      pose proof (Z.mod_pos_bound t 1000000000 ltac:(lia)).
      rewrite !dec_u_enc by (rewrite ?modulus_4; lia || assumption).
      rewrite (Hdur t x); auto.
    - cbn in HW. injection HW as <-. rewrite get_checked_enc. cbn [bind].
      rewrite dec_u_enc by (vm_compute; split; congruence). rewrite (proj1 Hopt). reflexivity.
    - cbn [write] in HW. apply bind_ok in HW as (b & Hb & [= <-]). inversion HT; subst.
      rewrite <- app_assoc, get_checked_enc. cbn [bind].
      rewrite dec_u_enc by (vm_compute; split; congruence). rewrite (proj2 Hopt). cbn [bind].
      apply (IHv t f b rest d); auto; [|lia]. eapply no_lost_sub; [exact HN|]. cbn. intros u Hu; now right.
    - inversion HT; subst. cbn [write] in HW.
      apply (IHv t f bs rest d); auto; [|lia]. eapply no_lost_sub; [exact HN|]. cbn. intros u Hu; now right.
    - (* bytes *)
      cbn [write] in HW. rewrite map_length in HW. apply bind_ok in HW as (hd & Hh & HW).
      fold byte_val in HW. change (map (fun b => VInt (Z.of_N (b2n b))) bs0) with (map byte_val bs0) in HW.
      rewrite write_bytes in HW. cbn [bind] in HW. injection HW as <-.
      apply put_len_ok in Hh as [-> HL]. rewrite <- app_assoc, get_len_enc by assumption. cbn [bind is_u8].
      now rewrite get_checked_app by reflexivity.
    - (* seq *)
      cbn [write] in HW. apply bind_ok in HW as (hd & Hh & HW). apply bind_ok in HW as (b & Hb & [= <-]).
      apply put_len_ok in Hh as [-> HL]. rewrite <- app_assoc, get_len_enc by assumption. cbn [bind].
      match goal with X : _ <> TInt false W8 |- _ => apply is_u8_false in X; rewrite X end.
      inversion HT; subst.
      match goal with X : Forall (has_type E t) vs |- _ => rename X into HTs end.
      match goal with X : Forall2 (same R E t) vs fs |- _ => rename X into HSs end.
      rewrite (repeat_read_cat2 _ (write E t) vs fs); [reflexivity| |exact Hb].
      refine (Forall2_impl2 _ _ _ _ _ (Forall2_and_l _ _ _ _ H (Forall2_and_l _ _ _ _ HTs
                (Forall2_and_l _ _ _ _ (Forall_in vs) HSs)))).
      cbn beta. intros v g (G & T & I & S1) b' r Hb'. apply (G t g b' r d); auto.
      + apply (no_lost_list vs (VSeq vs)); auto.
      + assert (vdepth v <= list_max (map vdepth vs))%nat by (apply list_max_in, in_map, I). lia.
    - (* map *)
      cbn [write] in HW. apply bind_ok in HW as (hd & Hh & HW). apply bind_ok in HW as (b & Hb & [= <-]).
      apply put_len_ok in Hh as [-> HL]. rewrite <- app_assoc, get_len_enc by assumption. cbn [bind].
      inversion HT; subst.
      match goal with X : Forall (fun p => has_type E tk (fst p)) kvs |- _ => rename X into HTk end.
      match goal with X : Forall (fun p => has_type E tv (snd p)) kvs |- _ => rename X into HTv end.
      match goal with X : Forall2 (fun p q => same R E tk (fst p) (fst q)) kvs fkvs |- _ => rename X into HSk end.
      match goal with X : Forall2 (fun p q => same R E tv (snd p) (snd q)) kvs fkvs |- _ => rename X into HSv end.
      erewrite (repeat_read_cat2 (read_pair (fread L E d tk) (fread L E d tv)) _ kvs fkvs); [|clear Hb|exact Hb].
      { cbn [bind]. rewrite check_keys_ok by assumption. cbn [bind]. now rewrite fbuild_map_nodup. }
      refine (Forall2_impl2 _ _ _ _ _ (Forall2_and_l _ _ _ _ H (Forall2_and_l _ _ _ _ HTk (Forall2_and_l _ _ _ _ HTv
                (Forall2_and_l _ _ _ _ (Forall_in kvs) (Forall2_both _ _ _ _ HSk HSv)))))).
      cbn beta. intros [k v] [k' v'] ((Gk & Gv) & Tk & Tv & I & Sk & Sv) b' r Hb'.
      cbn [fst snd] in *.
      apply bind_ok in Hb' as (bk & Hk & Hb'). apply bind_ok in Hb' as (bv & Hv & [= <-]).
      assert (M : (Nat.max (vdepth k) (vdepth v) <= list_max (map (fun p => Nat.max (vdepth (fst p)) (vdepth (snd p))) kvs))%nat).
      { apply list_max_in. apply in_map_iff. exists (k, v). auto. }
      assert (SB : forall u, incl (subvals u) (subvals k ++ subvals v) -> no_lost_instant u).
      { intros u Hu. eapply no_lost_sub; [exact HN|]. intros w Hw. cbn [subvals]. right.
        apply in_flat_map. exists (k, v). split; [exact I|]. apply Hu, Hw. }
      unfold read_pair. rewrite <- app_assoc.
      rewrite (Gk tk k' bk (bv ++ r) d); auto; [| |lia]. 2: { apply SB. intros w Hw. apply in_app_iff; auto. }
      cbn [bind]. rewrite (Gv tv v' bv r d); auto; [|lia]. apply SB. intros w Hw. apply in_app_iff; auto.
    - (* set *)
      cbn [write] in HW. apply bind_ok in HW as (hd & Hh & HW). apply bind_ok in HW as (b & Hb & [= <-]).
      apply put_len_ok in Hh as [-> HL]. rewrite <- app_assoc, get_len_enc by assumption. cbn [bind].
      inversion HT; subst.
      match goal with X : Forall (has_type E t) vs |- _ => rename X into HTs end.
      match goal with X : Forall2 (same R E t) vs fs |- _ => rename X into HSs end.
      rewrite (repeat_read_cat2 _ (write E t) vs fs); [|clear Hb|exact Hb].
      { cbn [bind]. rewrite check_keys_ok by assumption. cbn [bind]. now rewrite fbuild_set_nodup. }
      refine (Forall2_impl2 _ _ _ _ _ (Forall2_and_l _ _ _ _ H (Forall2_and_l _ _ _ _ HTs
                (Forall2_and_l _ _ _ _ (Forall_in vs) HSs)))).
      cbn beta. intros v g (G & T & I & S1) b' r Hb'. apply (G t g b' r d); auto.
      + apply (no_lost_list vs (VSet vs)); auto.
      + assert (vdepth v <= list_max (map vdepth vs))%nat by (apply list_max_in, in_map, I). lia.
    - (* record *)
      rewrite write_rec in HW. match goal with X : defs E n = _ |- _ => rewrite X in *; rename X into HD1 end.
      inversion HT; subst. rewrite HD1 in *.
      match goal with X : Some _ = Some _ |- _ => injection X as <- end.
      rewrite (fread_fields d ts vs fs); auto.
      intros v I. split; [apply (no_lost_list vs (VRec vs)); auto|].
      assert (vdepth v <= list_max (map vdepth vs))%nat by (apply list_max_in, in_map, I). lia.
    - (* enum *)
      rewrite write_enum in HW. match goal with X : defs E n = _ |- _ => rewrite X in *; rename X into HD1 end.
      match goal with X : nth_error variants i = _ |- _ => rewrite X in *; rename X into HD2 end.
      inversion HT; subst. match goal with X : defs E n = _ |- _ => rewrite HD1 in X end.
      match goal with X : Some _ = Some _ |- _ => injection X as <- <- end.
      match goal with X : nth_error variants i = _ |- _ => rewrite HD2 in X; injection X as <- end.
      apply bind_ok in HW as (fb & HW & [= <-]).
      rewrite <- app_assoc, get_checked_enc. cbn [bind]. unfold i32_max in *.
      rewrite dec_s_enc by (rewrite ?half_4; lia).
      destruct (Z.ltb_spec (Z.of_nat i + 1) 1); [lia|].
      replace (Z.to_nat (Z.of_nat i + 1 - 1)) with i by lia. rewrite HD2.
      rewrite (fread_fields d ts vs fs); auto.
      intros v I. split; [apply (no_lost_list vs (VEnum i vs)); auto|].
      assert (vdepth v <= list_max (map vdepth vs))%nat by (apply list_max_in, in_map, I). lia.
    - (* flat *)
      cbn [write] in HW. match goal with X : defs E n = _ |- _ => rewrite X in *; rename X into HD1 end.
      inversion HT; subst. match goal with X : defs E n = _ |- _ => rewrite HD1 in X end.
      match goal with X : Some _ = Some _ |- _ => injection X as <- <- end.
      destruct (Nat.ltb_spec i k); [|discriminate].
      apply bind_ok in HW as (sb & HW & [= <-]). unfold write_str in HW.
      apply bind_ok in HW as (hd & Hh & [= <-]). apply put_len_ok in Hh as [-> HL].
      rewrite <- !app_assoc, get_checked_enc. cbn [bind]. unfold i32_max in *.
      rewrite dec_s_enc by (rewrite ?half_4; lia).
      destruct (Z.leb_spec 1 (Z.of_nat i + 1)); [|lia].
      destruct (Z.leb_spec (Z.of_nat i + 1) (Z.of_nat k)); [|lia]. cbn [andb].
      rewrite get_len_enc by assumption. cbn [bind]. rewrite get_checked_app by reflexivity. cbn [bind].
      rewrite (Hstr m cs) by assumption. cbn [bind].
      replace (Z.to_nat (Z.of_nat i + 1 - 1)) with i by lia. reflexivity.
    - (* object *)
      cbn [write] in HW. match goal with X : defs E n = _ |- _ => rewrite X in *; rename X into HD1 end.
      inversion HT; subst. injection HW as <-. rewrite get_checked_enc. cbn [bind].
      rewrite dec_u_enc by assumption.
      destruct (Z.eqb_spec h 0) as [->|]; [|reflexivity].
      match goal with X : c_obj R 0 |- _ => rewrite (Hobj 0 X eq_refl) end. reflexivity.
    - (* custom *)
      cbn [write] in HW. match goal with X : defs E _ = Some (DCustom _) |- _ => rewrite X in *; rename X into HD1 end.
      rewrite String.eqb_refl in HW.
      inversion HT; subst. match goal with X : defs E _ = _, Y : defs E _ = _ |- _ => rewrite X in Y end.
      match goal with X : Some _ = Some _ |- _ => injection X as <- end.
      apply (IHv b f bs rest d); auto; [|lia]. eapply no_lost_sub; [exact HN|]. cbn. intros u Hu; now right.
  Qed.
End ToForeign.

(** * Foreign to Rust *)

(** A Rust value corresponds to at most one foreign value. *)
Lemma Forall2_inj {A B} (Q : A -> B -> Prop) vs :
  Forall (fun v => forall f f', Q v f -> Q v f' -> f = f') vs ->
  forall fs fs', Forall2 Q vs fs -> Forall2 Q vs fs' -> fs = fs'.
Proof.
  induction 1 as [|v vs H _ IH]; intros fs fs' A1 A2; inversion A1; inversion A2; subst;
    [reflexivity|]. f_equal; eauto.
Qed.

Section Inj.
  Variable R : corr.
  Variable E : env.
  Hypothesis Istr : forall s c c', c_str R s c -> c_str R s c' -> c = c'.
  Hypothesis Itime : forall t x x', c_time R t x -> c_time R t x' -> x = x'.
  Hypothesis Idur : forall t x x', c_dur R t x -> c_dur R t x' -> x = x'.
  Hypothesis Ifl : forall z f f', c_float R true z f -> c_float R true z f' -> f = f'.

  Definition f32_inj : Prop :=
    forall z f f', c_float R false z f -> c_float R false z f' -> f = f'.

  Definition inj_at (t : ty) : Prop := f32_inj \/ ~ uses E t (TFloat false).

  Lemma inj_at_sub t t' : (forall u, uses E t' u -> uses E t u) -> inj_at t -> inj_at t'.
  Proof. intros S' [H|H]; [left; exact H|right; intros U; apply H, S', U]. Qed.

  Lemma sames_inj ts vs :
    Forall (fun v => forall t f f', inj_at t -> same R E t v f -> same R E t v f' -> f = f') vs ->
    forall fs fs', Forall inj_at ts -> sames R E ts vs fs -> sames R E ts vs fs' -> fs = fs'.
  Proof.
    intros H; revert ts; induction H as [|v vs H _ IH]; intros ts fs fs' I A1 A2;
      inversion A1; subst; inversion A2; subst; [reflexivity|].
    inversion I; subst. f_equal; eauto.
  Qed.

  Lemma same_inj v : forall t f f',
    inj_at t -> same R E t v f -> same R E t v f' -> f = f'.
  Proof.
    induction v using val_ind'; intros ty f f' IA H1 H2; inversion H1; subst; inversion H2; subst;
      try reflexivity; try congruence;
      try (f_equal; eauto; fail).
    - destruct d; [f_equal; eauto|]. destruct IA as [IA|IA]; [f_equal; eauto|].
      exfalso. apply IA. constructor.
    - eapply IHv; [|eassumption..]. eapply inj_at_sub; [|exact IA]. intros; now constructor.
    - eapply IHv; [|eassumption..]. eapply inj_at_sub; [|exact IA]. intros; now constructor.
    - match goal with X : map _ ?a = map _ ?b |- FBytes _ = FBytes _ => rename X into M end.
      f_equal. revert M. clear. revert bs0. induction bs as [|b bs IH]; intros [|b' bs'] M; cbn in M;
        try congruence. injection M as M1 M2. f_equal; [|auto].
      apply b2n_inj. lia.
    - f_equal. eapply Forall2_inj; [|eassumption..]. rewrite Forall_forall in *.
      intros v Hv f f' A B. refine (H v Hv t f f' _ A B). eapply inj_at_sub; [|exact IA]. intros; now constructor.
    - f_equal.
      assert (X : Forall2 (fun p q => same R E tk (fst p) (fst q) /\ same R E tv (snd p) (snd q)) kvs fkvs)
        by now apply Forall2_both.
      assert (Y : Forall2 (fun p q => same R E tk (fst p) (fst q) /\ same R E tv (snd p) (snd q)) kvs fkvs0)
        by now apply Forall2_both.
      eapply Forall2_inj; [|exact X|exact Y]. rewrite Forall_forall in *.
      intros p Hp [a b] [a' b'] [A1 A2] [B1 B2]. destruct (H p Hp) as [G1 G2]. cbn [fst snd] in *.
      f_equal; [refine (G1 tk a a' _ A1 B1)|refine (G2 tv b b' _ A2 B2)];
        (eapply inj_at_sub; [|exact IA]); intros; [now apply uses_key|now apply uses_val].
    - f_equal. eapply Forall2_inj; [|eassumption..]. rewrite Forall_forall in *.
      intros v Hv f f' A B. refine (H v Hv t f f' _ A B). eapply inj_at_sub; [|exact IA]. intros; now constructor.
    - f_equal. match goal with X : defs E n = Some (DRecord ts), Y : defs E n = _ |- _ =>
        rewrite X in Y; injection Y as <- end.
      refine (sames_inj ts vs H fs fs0 _ _ _); [|assumption..]. apply Forall_forall. intros t Ht.
      eapply inj_at_sub; [|exact IA]. intros; eapply uses_field; eauto.
    - match goal with X : defs E n = Some (DEnum _ variants), Y : defs E n = _ |- _ =>
        rewrite X in Y; injection Y as <- <- end.
      match goal with X : nth_error variants i = Some ts, Y : nth_error variants i = _ |- _ =>
        rewrite X in Y; injection Y as <- end.
      f_equal. refine (sames_inj ts vs H fs fs0 _ _ _); [|assumption..]. apply Forall_forall. intros t Ht.
      eapply inj_at_sub; [|exact IA]. intros; eapply uses_variant; eauto using nth_error_In.
    - match goal with X : defs E n = Some (DCustom b), Y : defs E n = _ |- _ =>
        rewrite X in Y; injection Y as <- end.
      eapply IHv; [|eassumption..]. eapply inj_at_sub; [|exact IA]. intros; eapply uses_builtin; eauto.
  Qed.
End Inj.

Lemma Forall2_in_l {A B} (Q : A -> B -> Prop) l m a :
  Forall2 Q l m -> In a l -> exists b, In b m /\ Q a b.
Proof.
  induction 1 as [|x y l m q _ IH]; intros I; [destruct I|].
  destruct I as [->|I]; [exists y; cbn; auto|].
  destruct (IH I) as (b & Hb & Qb). exists b. cbn. auto.
Qed.

Lemma Forall2_nodup {A B} (Q : A -> B -> Prop) l m :
  (forall a b b', Q a b -> Q a b' -> b = b') -> Forall2 Q l m -> NoDup m -> NoDup l.
Proof.
  intros I; induction 1 as [|x y l m q F IH]; intros ND; [constructor|].
  inversion ND as [|? ? N1 N2]; subst. constructor; [|auto].
  intros H. destruct (Forall2_in_l _ _ _ _ F H) as (b & Hb & Qb).
  apply N1. now rewrite (I x y b q Qb).
Qed.

Lemma Forall2_fst {A B C D} (Q : A -> B -> Prop) (l : list (A * C)) (m : list (B * D)) :
  Forall2 (fun p q => Q (fst p) (fst q)) l m -> Forall2 Q (map fst l) (map fst m).
Proof. induction 1; cbn; constructor; auto. Qed.

Lemma Forall2_len {A B} (Q : A -> B -> Prop) l m : Forall2 Q l m -> length l = length m.
Proof. induction 1; cbn; congruence. Qed.

Lemma fwf_sub P f g : fwf P f -> incl (fsubs g) (fsubs f) -> fwf P g.
Proof. intros H I h Hh. apply H, I, Hh. Qed.

Lemma fwf_list P f fs g :
  fsubs f = f :: flat_map fsubs fs -> fwf P f -> In g fs -> fwf P g.
Proof.
  intros X H I. eapply fwf_sub; [exact H|]. intros h Hh. rewrite X. right.
  apply in_flat_map. eauto.
Qed.

Lemma fsubs_self f : In f (fsubs f).
Proof. destruct f; cbn; auto. Qed.

Lemma in_int_spec (sg : bool) w z : in_int sg w z = true ->
  if sg then - half (wbytes w) <= z < half (wbytes w) else 0 <= z < modulus (wbytes w).
Proof. destruct sg; cbn [in_int]; lia. Qed.

(** The number that is written as a length prefix. *)
Definition fsize (L : lang) (f : fval) : option nat :=
  match f with
  | FStr cs => match s_write L cs with Ok s => Some (length s) | _ => None end
  | FBytes s => Some (length s)
  | FSeq fs | FSet fs => Some (length fs)
  | FMap kfs => Some (length kfs)
  | _ => None
  end.

Section FromForeign.
  Variable L : lang.
  Variable R : corr.
  Variable E : env.
  Variable P : fval -> Prop.
  Hypothesis Wint : forall sg w z, c_int R sg w z.
  Hypothesis Wfloat : forall (d : bool) (f z : Z), P (FFloat f) -> f_write L d f = Ok z ->
    0 <= z < modulus (if d then 8 else 4)%nat /\ c_float R d z f.
  Hypothesis Wstr : forall cs s, s_write L cs = Ok s -> utf8_valid s = true /\ c_str R s cs.
  Hypothesis Wlen : forall f n hd, P f -> fsize L f = Some n -> l_write L n = Ok hd ->
    put_len n = Ok hd.
  Hypothesis Wtime : forall x s n, P (FTime x) -> t_write L x = Ok (s, n) ->
    exists t, c_time R t x /\ - half 8 <= t / 1000000000 < half 8 /\
    write_time t = Ok (enc 8 s ++ enc 4 n).
  Hypothesis Wdur : forall x s n, P (FDur x) -> d_write L x = Ok (s, n) ->
    exists t, c_dur R t x /\ 0 <= t / 1000000000 < modulus 8 /\
    write_dur t = Ok (enc 8 s ++ enc 4 n).
  Hypothesis Wobj : forall h, c_obj R h.
  Hypothesis Wkey : forall f, c_key R f.
  Hypothesis Istr : forall s c c', c_str R s c -> c_str R s c' -> c = c'.
  Hypothesis Itime : forall t x x', c_time R t x -> c_time R t x' -> x = x'.
  Hypothesis Idur : forall t x x', c_dur R t x -> c_dur R t x' -> x = x'.
  Hypothesis Ifl : forall z f f', c_float R true z f -> c_float R true z f' -> f = f'.

  Definition keys_ok (t : ty) : Prop := f32_inj R \/ no_f32_keys E t.

  Lemma keys_ok_sub t t' : (forall u, uses E t' u -> uses E t u) -> keys_ok t -> keys_ok t'.
  Proof. intros S' [H|H]; [left; exact H|right; intros u U; apply (H u), S', U]. Qed.

  Lemma keys_ok_map k v : keys_ok (TMap k v) -> inj_at R E k.
  Proof. intros [H|H]; [left; exact H|right]. exact (H _ (uses_refl _ _)). Qed.
  Lemma keys_ok_set k : keys_ok (TSet k) -> inj_at R E k.
  Proof. intros [H|H]; [left; exact H|right]. exact (H _ (uses_refl _ _)). Qed.

  Definition understood (d : nat) (t : ty) (f : fval) (bs : bytes) (v : val) : Prop :=
    has_type E t v /\ same R E t v f /\ write E t v = Ok bs /\ (vdepth v <= S d)%nat.

  Definition goal_from (d : nat) : Prop := forall t f bs,
    fwrite L E d t f = Ok bs -> fwf P f -> keys_ok t -> exists v, understood d t f bs v.

  Lemma from_list d t fs :
    goal_from d -> keys_ok t -> (forall f, In f fs -> fwf P f) -> forall bs,
    cat_res (map (fwrite L E d t) fs) = Ok bs ->
    exists vs, Forall (has_type E t) vs /\ Forall2 (same R E t) vs fs /\
      cat_res (map (write E t) vs) = Ok bs /\ (list_max (map vdepth vs) <= S d)%nat.
  Proof.
    intros G K. induction fs as [|f fs IH]; intros HP bs H; cbn [map cat_res] in H.
    - injection H as <-. exists []. repeat split; try constructor. cbn. lia.
    - apply bind_ok in H as (a & Ha & H). apply bind_ok in H as (b & Hb & [= <-]).
      destruct (G t f a Ha (HP f (or_introl eq_refl)) K) as (v & T & S1 & W & D).
      destruct (IH (fun g I => HP g (or_intror I)) b Hb) as (vs & T' & S' & W' & D').
      exists (v :: vs). split; [constructor; auto|]. split; [constructor; auto|].
      cbn [map cat_res]. rewrite W, W'. cbn [bind]. split; [reflexivity|].
      cbn [map list_max fold_right]. fold (list_max (map vdepth vs)). lia.
  Qed.

  Lemma from_fields d ts :
    goal_from d -> Forall keys_ok ts -> forall fs bs, (forall f, In f fs -> fwf P f) ->
    fwrite_all (fwrite L E d) ts fs = Ok bs ->
    exists vs, Forall2 (has_type E) ts vs /\ sames R E ts vs fs /\
      write_fields E ts vs = Ok bs /\ (list_max (map vdepth vs) <= S d)%nat.
  Proof.
    intros G. induction 1 as [|t ts K KS IH]; intros [|f fs] bs HP H; cbn [fwrite_all] in H; try discriminate.
    - injection H as <-. exists []. repeat split; try constructor. cbn. lia.
    - apply bind_ok in H as (a & Ha & H). apply bind_ok in H as (b & Hb & [= <-]).
      destruct (G t f a Ha (HP f (or_introl eq_refl)) K) as (v & T & S1 & W & D).
      destruct (IH fs b (fun g I => HP g (or_intror I)) Hb) as (vs & T' & S' & W' & D').
      exists (v :: vs). split; [constructor; auto|]. split; [constructor; auto|].
      cbn [write_fields]. rewrite W, W'. cbn [bind]. split; [reflexivity|].
      cbn [map list_max fold_right]. fold (list_max (map vdepth vs)). lia.
  Qed.

  Lemma from_pairs d tk tv kfs :
    goal_from d -> keys_ok tk -> keys_ok tv ->
    (forall p, In p kfs -> fwf P (fst p) /\ fwf P (snd p)) -> forall bs,
    cat_res (map (fun p => let* a := fwrite L E d tk (fst p) in
                           let* b := fwrite L E d tv (snd p) in Ok (a ++ b)) kfs) = Ok bs ->
    exists kvs, Forall (fun p => has_type E tk (fst p)) kvs /\
      Forall (fun p => has_type E tv (snd p)) kvs /\
      Forall2 (fun p q => same R E tk (fst p) (fst q)) kvs kfs /\
      Forall2 (fun p q => same R E tv (snd p) (snd q)) kvs kfs /\
      cat_res (map (fun p => let* a := write E tk (fst p) in
                             let* b := write E tv (snd p) in Ok (a ++ b)) kvs) = Ok bs /\
      (list_max (map (fun p => Nat.max (vdepth (fst p)) (vdepth (snd p))) kvs) <= S d)%nat.
  Proof.
    intros G Kk Kv. induction kfs as [|[k v] kfs IH]; intros HP bs H; cbn [map cat_res] in H.
    - injection H as <-. exists []. repeat split; try constructor. cbn. lia.
    - apply bind_ok in H as (a & Ha & H). apply bind_ok in H as (b & Hb & [= <-]).
      cbn [fst snd] in Ha. apply bind_ok in Ha as (ak & Hk & Ha). apply bind_ok in Ha as (av & Hv & [= <-]).
      destruct (HP (k, v) (or_introl eq_refl)) as [Pk Pv]. cbn [fst snd] in Pk, Pv.
      destruct (G tk k ak Hk Pk Kk) as (k' & T1 & S1 & W1 & D1).
      destruct (G tv v av Hv Pv Kv) as (v' & T2 & S2 & W2 & D2).
      destruct (IH (fun g I => HP g (or_intror I)) b Hb) as (kvs & T3 & T4 & S3 & S4 & W' & D').
      exists ((k', v') :: kvs). split; [constructor; auto|]. split; [constructor; auto|].
      split; [constructor; auto|]. split; [constructor; auto|].
      cbn [map cat_res fst snd]. rewrite W1, W2, W'. cbn [bind]. split; [reflexivity|].
      cbn [map list_max fold_right fst snd].
      fold (list_max (map (fun p => Nat.max (vdepth (fst p)) (vdepth (snd p))) kvs)). lia.
  Qed.

  Lemma modulus_1 : modulus 1 = 256. Proof. vm_compute. reflexivity. Qed.

  Theorem fwrite_understood d : goal_from d.
  Proof.
    induction d as [|d IH]; intros t f bs H HP K; [discriminate|]. cbn [fwrite] in H.
    destruct (HP f (fsubs_self f)) as [Pf Wf].
    destruct t as [sg w|db| | | | |t'|t'|t'|tk tv|t'|n].
    - destruct f; try discriminate. destruct (in_int sg w z) eqn:I; [|discriminate].
      injection H as <-. exists (VInt z). apply in_int_spec in I.
      split; [destruct sg; constructor; assumption|]. split; [now constructor|].
      split; [reflexivity|cbn; lia].
    - destruct f; try discriminate. apply bind_ok in H as (z & Hz & [= <-]).
      destruct (Wfloat db bits z Pf Hz) as [B C]. exists (VFloat z).
      split; [now constructor|]. split; [now constructor|]. split; [reflexivity|cbn; lia].
    - destruct f; try discriminate. injection H as <-. exists (VBool b).
      split; [constructor|]. split; [constructor|]. split; [reflexivity|cbn; lia].
    - destruct f; try discriminate. apply bind_ok in H as (s & Hs & H).
      apply bind_ok in H as (hd & Hh & [= <-]). destruct (Wstr cs s Hs) as [V C].
      exists (VStr s). split; [now constructor|]. split; [now constructor|]. split; [|cbn; lia].
      cbn [write]. unfold write_str. rewrite (Wlen (FStr cs) (length s) hd Pf); auto.
      cbn [fsize]. now rewrite Hs.
    - destruct f; try discriminate. apply bind_ok in H as ([s n] & Hs & [= <-]).
      destruct (Wtime ticks s n Pf Hs) as (t & C & B & W). exists (VTime t).
      split; [now constructor|]. split; [now constructor|]. split; [exact W|cbn; lia].
    - destruct f; try discriminate. apply bind_ok in H as ([s n] & Hs & [= <-]).
      destruct (Wdur ticks s n Pf Hs) as (t & C & B & W). exists (VDur t).
      split; [now constructor|]. split; [now constructor|]. split; [exact W|cbn; lia].
    - (* option *)
      assert (K' : keys_ok t') by (eapply keys_ok_sub; [|exact K]; intros; now constructor).
      assert (X : f = FNone \/ f <> FNone) by (destruct f; auto; right; congruence).
      destruct X as [->|N].
      + injection H as <-. exists VNone. split; [constructor|]. split; [constructor|].
        split; [reflexivity|cbn; lia].
      + assert (H' : (let* b := fwrite L E d t' f in Ok (enc 1 1 ++ b)) = Ok bs)
          by (destruct f; try exact H; congruence).
        apply bind_ok in H' as (b & Hb & [= <-]).
        destruct (IH t' f b Hb HP K') as (v & T & S1 & W & D). exists (VSome v).
        split; [now constructor|]. split; [now constructor|]. cbn [write]. rewrite W.
        split; [reflexivity|cbn [vdepth]; lia].
    - (* box *)
      assert (K' : keys_ok t') by (eapply keys_ok_sub; [|exact K]; intros; now constructor).
      destruct (IH t' f bs H HP K') as (v & T & S1 & W & D). exists (VBox v).
      split; [now constructor|]. split; [now constructor|]. cbn [write].
      split; [exact W|cbn [vdepth]; lia].
    - (* vec *)
      assert (K' : keys_ok t') by (eapply keys_ok_sub; [|exact K]; intros; now constructor).
      destruct (is_u8 t') eqn:U; destruct f; try discriminate.
      + apply is_u8_true in U as ->. apply bind_ok in H as (hd & Hh & [= <-]).
        exists (VSeq (map byte_val bs0)). split; [|split; [constructor|split]].
        * constructor. apply Forall_forall. intros x Hx. apply in_map_iff in Hx as (b & <- & _).
          constructor. cbn [wbytes]. rewrite modulus_1. pose proof (b2n_lt b). lia.
        * cbn [write]. rewrite map_length, write_bytes.
          rewrite (Wlen (FBytes bs0) (length bs0) hd Pf eq_refl Hh). reflexivity.
        * cbn [vdepth]. assert (list_max (map vdepth (map byte_val bs0)) <= 1)%nat; [|lia].
          apply list_max_le. apply Forall_forall. intros x Hx. apply in_map_iff in Hx as (y & <- & Hy).
          apply in_map_iff in Hy as (b & <- & _). cbn. lia.
      + apply bind_ok in H as (hd & Hh & H). apply bind_ok in H as (b & Hb & [= <-]).
        destruct (from_list d t' vs IH K') with (bs := b) as (us & T & S1 & W & D); [|exact Hb|].
        { intros g I. apply (fwf_list P (FSeq vs) vs); auto. }
        exists (VSeq us). split; [now constructor|]. apply is_u8_false in U.
        split; [now constructor|]. cbn [write]. rewrite (Forall2_len _ _ _ S1).
        rewrite (Wlen (FSeq vs) (length vs) hd Pf eq_refl Hh), W.
        split; [reflexivity|cbn [vdepth]; lia].
    - (* map *)
      assert (Kk : keys_ok tk) by (eapply keys_ok_sub; [|exact K]; intros; now apply uses_key).
      assert (Kv : keys_ok tv) by (eapply keys_ok_sub; [|exact K]; intros; now apply uses_val).
      destruct f; try discriminate.
      apply bind_ok in H as (hd & Hh & H). apply bind_ok in H as (b & Hb & [= <-]).
      destruct (from_pairs d tk tv kvs IH Kk Kv) with (bs := b) as (us & T1 & T2 & S1 & S2 & W & D); [|exact Hb|].
      { intros [k v] I. cbn [fst snd]. split; (eapply fwf_sub; [exact HP|]); intros h Hh'; cbn [fsubs];
          right; apply in_flat_map; exists (k, v); split; auto; apply in_app_iff; auto. }
      exists (VMap us).
      assert (ND : NoDup (map fst us)).
      { eapply (Forall2_nodup (same R E tk)); [|exact (Forall2_fst (same R E tk) us kvs S1)|exact Wf]. intros a c c' A B.
        refine (same_inj R E Istr Itime Idur Ifl a tk c c' _ A B). eapply keys_ok_map, K. }
      split; [now constructor|]. split; [constructor; auto; apply Forall_forall; auto|].
      cbn [write]. rewrite (Forall2_len _ _ _ S1).
      rewrite (Wlen (FMap kvs) (length kvs) hd Pf eq_refl Hh), W.
      split; [reflexivity|cbn [vdepth]; lia].
    - (* set *)
      assert (K' : keys_ok t') by (eapply keys_ok_sub; [|exact K]; intros; now constructor).
      destruct f; try discriminate.
      apply bind_ok in H as (hd & Hh & H). apply bind_ok in H as (b & Hb & [= <-]).
      destruct (from_list d t' vs IH K') with (bs := b) as (us & T & S1 & W & D); [|exact Hb|].
      { intros g I. apply (fwf_list P (FSet vs) vs); auto. }
      exists (VSet us).
      assert (ND : NoDup us).
      { eapply Forall2_nodup; [|exact S1|exact Wf]. intros a c c' A B.
        refine (same_inj R E Istr Itime Idur Ifl a t' c c' _ A B). eapply keys_ok_set, K. }
      split; [now constructor|]. split; [constructor; auto; apply Forall_forall; auto|].
      cbn [write]. rewrite (Forall2_len _ _ _ S1).
      rewrite (Wlen (FSet vs) (length vs) hd Pf eq_refl Hh), W.
      split; [reflexivity|cbn [vdepth]; lia].
    - destruct (defs E n) as [[ts|ne variants|k r| |b]|] eqn:DN; try discriminate.
      + destruct f; try discriminate. destruct (String.eqb_spec n0 n) as [->|]; [|discriminate].
        destruct (from_fields d ts IH) with (fs := vs) (bs := bs) as (us & T & S1 & W & D); auto.
        { apply Forall_forall. intros t It. eapply keys_ok_sub; [|exact K]. intros; eapply uses_field; eauto. }
        { intros g I. apply (fwf_list P (FRec n vs) vs); auto. }
        exists (VRec us). split; [econstructor; eauto|]. split; [econstructor; eauto|].
        rewrite write_rec, DN. split; [exact W|cbn [vdepth]; lia].
      + destruct f; try discriminate. destruct (String.eqb_spec n0 n) as [->|]; [|discriminate].
        destruct (nth_error variants i) as [ts|] eqn:DV; [|discriminate].
        destruct (Z.ltb_spec (Z.of_nat i) i32_max); [|discriminate].
        apply bind_ok in H as (b & Hb & [= <-]).
        destruct (from_fields d ts IH) with (fs := vs) (bs := b) as (us & T & S1 & W & D); auto.
        { apply Forall_forall. intros t It. eapply keys_ok_sub; [|exact K].
          intros; eapply uses_variant; eauto using nth_error_In. }
        { intros g I. apply (fwf_list P (FEnum n i vs) vs); auto. }
        exists (VEnum i us). split; [econstructor; eauto|]. split; [econstructor; eauto|].
        rewrite write_enum, DN, DV, W. split; [reflexivity|cbn [vdepth]; lia].
      + destruct f; try discriminate. destruct Wf.
      + destruct f; try discriminate.
        destruct (String.eqb_spec n0 n) as [->|]; [|discriminate]. cbn [andb] in H.
        destruct (in_int false W64 h) eqn:I; [|discriminate]. injection H as <-.
        apply in_int_spec in I. exists (VObj h). split; [now constructor|]. split; [now constructor|].
        cbn [write]. rewrite DN. split; [reflexivity|cbn; lia].
      + assert (K' : keys_ok b) by (eapply keys_ok_sub; [|exact K]; intros; eapply uses_builtin; eauto).
        destruct (IH b f bs H HP K') as (v & T & S1 & W & D). exists (VCustom n v).
        split; [exact (ht_custom E n b v DN T)|]. split; [econstructor; eauto|]. cbn [write].
        rewrite DN, String.eqb_refl. split; [exact W|cbn [vdepth]; lia].
  Qed.
End FromForeign.

(** * Both sides write the same bytes *)

Lemma no_flat_sub v u : no_flat v -> incl (subvals u) (subvals v) -> no_flat u.
Proof. intros H I i m Hi. apply (H i m), I, Hi. Qed.

Lemma no_flat_list vs u v :
  subvals u = u :: flat_map subvals vs -> no_flat u -> In v vs -> no_flat v.
Proof.
  intros X H Hv. eapply no_flat_sub; [exact H|]. intros w Hw. rewrite X. right.
  eapply in_flat_map_sub; eauto.
Qed.

Lemma in_int_true (sg : bool) w z :
  (if sg then - half (wbytes w) <= z < half (wbytes w) else 0 <= z < modulus (wbytes w)) ->
  in_int sg w z = true.
Proof. destruct sg; cbn [in_int]; lia. Qed.

Lemma cat_res_map2 {A B} (w : A -> res bytes) (w' : B -> res bytes) vs fs :
  Forall2 (fun v f => forall b, w v = Ok b -> w' f = Ok b) vs fs ->
  forall b, cat_res (map w vs) = Ok b -> cat_res (map w' fs) = Ok b.
Proof.
  induction 1 as [|v f vs fs H _ IH]; cbn [map cat_res]; intros b HW; [exact HW|].
  apply bind_ok in HW as (a & Ha & HW). apply bind_ok in HW as (c & Hc & [= <-]).
  rewrite (H _ Ha), (IH _ Hc). reflexivity.
Qed.

Section Exact.
  Variable L : lang.
  Variable R : corr.
  Variable E : env.
  Hypothesis Xfloat : forall (d : bool) (z f : Z), 0 <= z < modulus (if d then 8 else 4)%nat ->
    c_float R d z f -> f_write L d f = Ok z.
  Hypothesis Xstr : forall s cs, c_str R s cs -> s_write L cs = Ok s.
  Hypothesis Xlen : forall n, Z.of_nat n <= i32_max -> l_write L n = Ok (enc 4 (Z.of_nat n)).
  Hypothesis Xtime : forall t x, c_time R t x -> t_write L x = Ok (t_secs t, t_nanos t).
  Hypothesis Xdur : forall t x, 0 <= t / 1000000000 < modulus 8 -> c_dur R t x ->
    d_write L x = Ok (t / 1000000000, t mod 1000000000).

  Definition goal_exact (v : val) : Prop := forall t f bs d,
    same R E t v f -> has_type E t v -> no_flat v ->
    write E t v = Ok bs -> (vdepth v <= d)%nat -> fwrite L E d t f = Ok bs.

  Lemma fwrite_fields d ts vs fs :
    Forall goal_exact vs -> sames R E ts vs fs -> Forall2 (has_type E) ts vs ->
    (forall v, In v vs -> no_flat v /\ (vdepth v <= d)%nat) ->
    forall bs, write_fields E ts vs = Ok bs -> fwrite_all (fwrite L E d) ts fs = Ok bs.
  Proof.
    intros HG HS. revert HG. induction HS as [|t ts v vs f fs HS1 HS IH];
      intros HG HT HI bs HW; cbn [write_fields fwrite_all] in *.
    - exact HW.
    - apply bind_ok in HW as (a & Ha & HW). apply bind_ok in HW as (b & Hb & [= <-]).
      inversion HG as [|? ? G1 G2]; inversion HT as [|? ? ? ? T1 T2]; subst.
      destruct (HI v (or_introl eq_refl)) as [N D].
      rewrite (G1 t f a d HS1 T1 N Ha D). cbn [bind].
      rewrite (IH G2 T2) with (bs := b) by (try exact Hb; intros u Hu; apply HI; right; exact Hu). reflexivity.
  Qed.

  Theorem fwrite_exact v : goal_exact v.
  Proof.
    unfold goal_exact.
    induction v using val_ind'; intros ty f bs [|d] HS HT HN HW HD; cbn [vdepth] in HD;
      try lia; inversion HS; subst; clear HS; cbn [fwrite].
    - cbn in HW. injection HW as <-.
      rewrite in_int_true; [reflexivity|]. destruct sg; inversion HT; subst; assumption.
    - inversion HT; subst. cbn in HW. injection HW as <-. rewrite (Xfloat d0 z f0); auto.
    - cbn in HW. exact HW.
    - cbn [write] in HW. unfold write_str in HW. apply bind_ok in HW as (hd & Hh & [= <-]).
      apply put_len_ok in Hh as [-> HL]. rewrite (Xstr s cs) by assumption. cbn [bind].
      now rewrite Xlen.
    - cbn [write] in HW. unfold write_time in HW.
      destruct (Z.leb_spec (Z.abs t / nanos_per_sec) i64_max) as [Lm|]; [|discriminate].
      injection HW as <-. rewrite (Xtime t x) by assumption. reflexivity.
    - cbn [write] in HW. unfold write_dur in HW. injection HW as <-. inversion HT; subst.
      rewrite (Xdur t x); auto.
    - cbn in HW. exact HW.
    - cbn [write] in HW. apply bind_ok in HW as (b & Hb & [= <-]). inversion HT; subst.
      assert (G : fwrite L E d t f = Ok b).
      { apply (IHv t f b d); auto; [|lia]. eapply no_flat_sub; [exact HN|]. cbn. intros u Hu; now right. }
      rewrite G. destruct f; try reflexivity. congruence.
    - inversion HT; subst. cbn [write] in HW.
      apply (IHv t f bs d); auto; [|lia]. eapply no_flat_sub; [exact HN|]. cbn. intros u Hu; now right.
    - cbn [write] in HW. rewrite map_length in HW. apply bind_ok in HW as (hd & Hh & HW).
      change (map (fun b => VInt (Z.of_N (b2n b))) bs0) with (map byte_val bs0) in HW.
      rewrite write_bytes in HW. cbn [bind] in HW. injection HW as <-.
      apply put_len_ok in Hh as [-> HL]. cbn [is_u8]. now rewrite Xlen.
    - cbn [write] in HW. apply bind_ok in HW as (hd & Hh & HW). apply bind_ok in HW as (b & Hb & [= <-]).
      apply put_len_ok in Hh as [-> HL].
      match goal with X : _ <> TInt false W8 |- _ => apply is_u8_false in X; rewrite X end.
      inversion HT; subst.
      match goal with X : Forall (has_type E t) vs |- _ => rename X into HTs end.
      match goal with X : Forall2 (same R E t) vs fs |- _ => rename X into HSs end.
      rewrite <- (Forall2_len _ _ _ HSs), Xlen by assumption. cbn [bind].
      rewrite (cat_res_map2 (write E t) (fwrite L E d t) vs fs) with (b := b); [reflexivity| |exact Hb].
      refine (Forall2_impl2 _ _ _ _ _ (Forall2_and_l _ _ _ _ H (Forall2_and_l _ _ _ _ HTs
                (Forall2_and_l _ _ _ _ (Forall_in vs) HSs)))).
      cbn beta. intros v g (G & T & I & S1) b' Hb'. apply (G t g b' d); auto.
      + apply (no_flat_list vs (VSeq vs)); auto.
      + assert (vdepth v <= list_max (map vdepth vs))%nat by (apply list_max_in, in_map, I). lia.
    - cbn [write] in HW. apply bind_ok in HW as (hd & Hh & HW). apply bind_ok in HW as (b & Hb & [= <-]).
      apply put_len_ok in Hh as [-> HL].
      inversion HT; subst.
      match goal with X : Forall (fun p => has_type E tk (fst p)) kvs |- _ => rename X into HTk end.
      match goal with X : Forall (fun p => has_type E tv (snd p)) kvs |- _ => rename X into HTv end.
      match goal with X : Forall2 (fun p q => same R E tk (fst p) (fst q)) kvs fkvs |- _ => rename X into HSk end.
      match goal with X : Forall2 (fun p q => same R E tv (snd p) (snd q)) kvs fkvs |- _ => rename X into HSv end.
      rewrite <- (Forall2_len _ _ _ HSk), Xlen by assumption. cbn [bind].
      match goal with |- (let* b := cat_res (map ?g fkvs) in _) = _ =>
        match type of Hb with cat_res (map ?h kvs) = _ =>
          rewrite (cat_res_map2 h g kvs fkvs) with (b := b); [reflexivity| |exact Hb] end end.
      refine (Forall2_impl2 _ _ _ _ _ (Forall2_and_l _ _ _ _ H (Forall2_and_l _ _ _ _ HTk (Forall2_and_l _ _ _ _ HTv
                (Forall2_and_l _ _ _ _ (Forall_in kvs) (Forall2_both _ _ _ _ HSk HSv)))))).
      cbn beta. intros [k v] [k' v'] ((Gk & Gv) & Tk & Tv & I & Sk & Sv) b' Hb'.
      cbn [fst snd] in *.
      apply bind_ok in Hb' as (bk & Hk & Hb'). apply bind_ok in Hb' as (bv & Hv & [= <-]).
      assert (M : (Nat.max (vdepth k) (vdepth v) <= list_max (map (fun p => Nat.max (vdepth (fst p)) (vdepth (snd p))) kvs))%nat).
      { apply list_max_in. apply in_map_iff. exists (k, v). auto. }
      assert (SB : forall u, incl (subvals u) (subvals k ++ subvals v) -> no_flat u).
      { intros u Hu. eapply no_flat_sub; [exact HN|]. intros w Hw. cbn [subvals]. right.
        apply in_flat_map. exists (k, v). split; [exact I|]. apply Hu, Hw. }
      rewrite (Gk tk k' bk d); auto; [| |lia]. 2: { apply SB. intros w Hw. apply in_app_iff; auto. }
      cbn [bind]. rewrite (Gv tv v' bv d); auto; [|lia]. apply SB. intros w Hw. apply in_app_iff; auto.
    - cbn [write] in HW. apply bind_ok in HW as (hd & Hh & HW). apply bind_ok in HW as (b & Hb & [= <-]).
      apply put_len_ok in Hh as [-> HL].
      inversion HT; subst.
      match goal with X : Forall (has_type E t) vs |- _ => rename X into HTs end.
      match goal with X : Forall2 (same R E t) vs fs |- _ => rename X into HSs end.
      rewrite <- (Forall2_len _ _ _ HSs), Xlen by assumption. cbn [bind].
      rewrite (cat_res_map2 (write E t) (fwrite L E d t) vs fs) with (b := b); [reflexivity| |exact Hb].
      refine (Forall2_impl2 _ _ _ _ _ (Forall2_and_l _ _ _ _ H (Forall2_and_l _ _ _ _ HTs
                (Forall2_and_l _ _ _ _ (Forall_in vs) HSs)))).
      cbn beta. intros v g (G & T & I & S1) b' Hb'. apply (G t g b' d); auto.
      + apply (no_flat_list vs (VSet vs)); auto.
      + assert (vdepth v <= list_max (map vdepth vs))%nat by (apply list_max_in, in_map, I). lia.
    - rewrite write_rec in HW. match goal with X : defs E n = _ |- _ => rewrite X in *; rename X into HD1 end.
      inversion HT; subst. rewrite HD1 in *.
      match goal with X : Some _ = Some _ |- _ => injection X as <- end.
      rewrite String.eqb_refl. apply (fwrite_fields d ts vs fs); auto.
      intros v I. split; [apply (no_flat_list vs (VRec vs)); auto|].
      assert (vdepth v <= list_max (map vdepth vs))%nat by (apply list_max_in, in_map, I). lia.
    - rewrite write_enum in HW. match goal with X : defs E n = _ |- _ => rewrite X in *; rename X into HD1 end.
      match goal with X : nth_error variants i = _ |- _ => rewrite X in *; rename X into HD2 end.
      inversion HT; subst. match goal with X : defs E n = _ |- _ => rewrite HD1 in X end.
      match goal with X : Some _ = Some _ |- _ => injection X as <- <- end.
      match goal with X : nth_error variants i = _ |- _ => rewrite HD2 in X; injection X as <- end.
      apply bind_ok in HW as (fb & HW & [= <-]). rewrite String.eqb_refl.
      destruct (Z.ltb_spec (Z.of_nat i) i32_max); [|lia].
      rewrite (fwrite_fields d ts vs fs) with (bs := fb); auto.
      intros v I. split; [apply (no_flat_list vs (VEnum i vs)); auto|].
      assert (vdepth v <= list_max (map vdepth vs))%nat by (apply list_max_in, in_map, I). lia.
    - exfalso. apply (HN i m). cbn; auto.
    - cbn [write] in HW. match goal with X : defs E n = _ |- _ => rewrite X in *; rename X into HD1 end.
      inversion HT; subst. injection HW as <-. rewrite String.eqb_refl. cbn [andb].
      now rewrite in_int_true.
    - cbn [write] in HW. match goal with X : defs E _ = Some (DCustom _) |- _ => rewrite X in *; rename X into HD1 end.
      rewrite String.eqb_refl in HW.
      inversion HT; subst. match goal with X : defs E _ = _, Y : defs E _ = _ |- _ => rewrite X in Y end.
      match goal with X : Some _ = Some _ |- _ => injection X as <- end.
      apply (IHv b f bs d); auto; [|lia]. eapply no_flat_sub; [exact HN|]. cbn. intros u Hu; now right.
  Qed.
End Exact.

(** * Flat errors: only the variant travels to Rust *)

Lemma fwrite_flat L E d n i cs bs k r :
  defs E n = Some (DFlat k r) -> fwrite L E (S d) (TNamed n) (FFlat n i cs) = Ok bs ->
  (i < k)%nat /\ Z.of_nat i < i32_max /\ bs = enc 4 (Z.of_nat i + 1).
Proof.
  intros D H. cbn [fwrite] in H. rewrite D, String.eqb_refl in H. cbn [andb] in H.
  destruct (Nat.ltb_spec i k); [|discriminate].
  destruct (Z.ltb_spec (Z.of_nat i) i32_max); [|discriminate]. injection H as <-. auto.
Qed.
