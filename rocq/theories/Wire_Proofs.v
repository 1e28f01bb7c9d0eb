(** Lemmas about the wire model: round trip, locality, totality. *)
From Coq Require Import Sorting.Permutation.
From Verif Require Import Base Utf8 Utf8_Proofs Wire_Model Wire_Spec.
Local Open Scope Z_scope.

(** * Induction and equality on values *)

Section ValInd.
  Variable P : val -> Prop.
  Hypothesis HInt : forall z, P (VInt z).
  Hypothesis HFloat : forall z, P (VFloat z).
  Hypothesis HBool : forall b, P (VBool b).
  Hypothesis HStr : forall s, P (VStr s).
  Hypothesis HTime : forall t, P (VTime t).
  Hypothesis HDur : forall t, P (VDur t).
  Hypothesis HNone : P VNone.
  Hypothesis HSome : forall v, P v -> P (VSome v).
  Hypothesis HBox : forall v, P v -> P (VBox v).
  Hypothesis HSeq : forall vs, Forall P vs -> P (VSeq vs).
  Hypothesis HMap : forall kvs, Forall (fun p => P (fst p) /\ P (snd p)) kvs -> P (VMap kvs).
  Hypothesis HSet : forall vs, Forall P vs -> P (VSet vs).
  Hypothesis HRec : forall vs, Forall P vs -> P (VRec vs).
  Hypothesis HEnum : forall i vs, Forall P vs -> P (VEnum i vs).
  Hypothesis HFlat : forall i m, P (VFlat i m).
  Hypothesis HObj : forall h, P (VObj h).
  Hypothesis HCustom : forall n v, P v -> P (VCustom n v).

  Fixpoint val_ind' (v : val) : P v :=
    let lst := (fix go (vs : list val) : Forall P vs :=
                  match vs with
                  | [] => Forall_nil _
                  | x :: xs => Forall_cons _ (val_ind' x) (go xs)
                  end) in
    match v with
    | VInt z => HInt z
    | VFloat z => HFloat z
    | VBool b => HBool b
    | VStr s => HStr s
    | VTime t => HTime t
    | VDur t => HDur t
    | VNone => HNone
    | VSome v' => HSome _ (val_ind' v')
    | VBox v' => HBox _ (val_ind' v')
    | VSeq vs => HSeq _ (lst vs)
    | VMap kvs =>
      HMap _ ((fix go (kvs : list (val * val)) : Forall (fun p => P (fst p) /\ P (snd p)) kvs :=
                 match kvs with
                 | [] => Forall_nil _
                 | p :: r => Forall_cons _ (conj (val_ind' (fst p)) (val_ind' (snd p))) (go r)
                 end) kvs)
    | VSet vs => HSet _ (lst vs)
    | VRec vs => HRec _ (lst vs)
    | VEnum i vs => HEnum i _ (lst vs)
    | VFlat i m => HFlat i m
    | VObj h => HObj h
    | VCustom n v' => HCustom n _ (val_ind' v')
    end.
End ValInd.

Definition vals_eqb : list val -> list val -> bool :=
  fix go (xs ys : list val) {struct xs} : bool :=
    match xs, ys with
    | [], [] => true
    | x :: xs', y :: ys' => val_eqb x y && go xs' ys'
    | _, _ => false
    end.


Lemma val_eqb_eq a : forall b, val_eqb a b = true <-> a = b.
Proof.
  assert (L : forall xs ys, Forall (fun x => forall y, val_eqb x y = true <-> x = y) xs ->
              (vals_eqb xs ys = true <-> xs = ys)).
  { intros xs ys H; revert ys; induction H as [|x xs Hx _ IH]; intros [|y ys]; cbn;
      try (split; congruence).
    rewrite andb_true_iff, Hx. fold (vals_eqb xs ys). rewrite IH.
    split; [intros [-> ->]; reflexivity | intros [= -> ->]; auto]. }
  induction a using val_ind'; intros []; cbn [val_eqb]; try (split; congruence);
    try (fold vals_eqb; rewrite L by assumption; split; congruence);
    try (rewrite Z.eqb_eq; split; congruence);
    try (rewrite IHa; split; congruence).
  - rewrite Bool.eqb_true_iff. split; congruence.
  - destruct (bytes_eqb_spec s s0); split; congruence.
  - match goal with |- ?f kvs kvs0 = true <-> _ => set (go := f) end.
    assert (M : forall ys, go kvs ys = true <-> kvs = ys).
    { induction H as [|[k v] xs [Hk Hv] _ IH]; intros [|[k' v'] ys]; cbn;
        try (split; congruence).
      cbn in Hk, Hv. rewrite !andb_true_iff, Hk, Hv. fold go. rewrite IH.
      split; [intros [[-> ->] ->]; reflexivity | intros [= -> -> ->]; auto]. }
    rewrite M. split; congruence.
  - fold vals_eqb. rewrite andb_true_iff, Nat.eqb_eq, L by assumption.
    split; [intros [-> ->]; reflexivity | intros [= -> ->]; auto].
  - rewrite andb_true_iff, Nat.eqb_eq. destruct (bytes_eqb_spec m msg);
      split; [intros [-> _]; congruence|intros [= -> _]; auto|intros [_ X]; discriminate|congruence].
  - rewrite andb_true_iff, String.eqb_eq, IHa.
    split; [intros [-> ->]; reflexivity | intros [= -> ->]; auto].
Qed.

Lemma val_eqb_spec a b : reflect (a = b) (val_eqb a b).
Proof.
  destruct (val_eqb a b) eqn:H; constructor.
  - now apply val_eqb_eq.
  - intros X. apply val_eqb_eq in X. congruence.
Qed.

Lemma val_eqb_refl a : val_eqb a a = true.
Proof. now apply val_eqb_eq. Qed.

(** * Maps and sets *)

Lemma map_insert_fresh k v m :
  ~ In k (map fst m) -> map_insert k v m = m ++ [(k, v)].
Proof.
  induction m as [|[k' v'] m IH]; cbn; intros H; [reflexivity|].
  destruct (val_eqb_spec k' k); [exfalso; tauto|]. now rewrite IH by tauto.
Qed.

Lemma build_map_gen kvs acc :
  NoDup (map fst (acc ++ kvs)) ->
  fold_left (fun m p => map_insert (fst p) (snd p) m) kvs acc = acc ++ kvs.
Proof.
  revert acc; induction kvs as [|[k v] kvs IH]; intros acc H; cbn.
  - now rewrite app_nil_r.
  - rewrite map_insert_fresh.
    + rewrite IH; rewrite <- app_assoc; [reflexivity|exact H].
    + rewrite map_app in H. cbn in H. apply NoDup_remove_2 in H.
      rewrite in_app_iff in H. tauto.
Qed.

Lemma build_map_nodup kvs : NoDup (map fst kvs) -> build_map kvs = kvs.
Proof. intros H. exact (build_map_gen kvs [] H). Qed.

Lemma set_insert_fresh x s : ~ In x s -> set_insert x s = s ++ [x].
Proof.
  induction s as [|y s IH]; cbn; intros H; [reflexivity|].
  destruct (val_eqb_spec y x); [exfalso; tauto|]. now rewrite IH by tauto.
Qed.

Lemma build_set_gen vs acc :
  NoDup (acc ++ vs) -> fold_left (fun s x => set_insert x s) vs acc = acc ++ vs.
Proof.
  revert acc; induction vs as [|x vs IH]; intros acc H; cbn.
  - now rewrite app_nil_r.
  - rewrite set_insert_fresh.
    + rewrite IH; rewrite <- app_assoc; [reflexivity|exact H].
    + apply NoDup_remove_2 in H. rewrite in_app_iff in H. tauto.
Qed.

Lemma build_set_nodup vs : NoDup vs -> build_set vs = vs.
Proof. intros H. exact (build_set_gen vs [] H). Qed.

Lemma map_insert_lookup k v m k0 :
  map_lookup k0 (map_insert k v m) = if val_eqb k k0 then Some v else map_lookup k0 m.
Proof.
  induction m as [|[k' v'] m IH]; cbn.
  - reflexivity.
  - destruct (val_eqb_spec k' k) as [->|]; cbn.
    + destruct (val_eqb_spec k k0); reflexivity.
    + rewrite IH. destruct (val_eqb_spec k' k0) as [->|]; [|reflexivity].
      destruct (val_eqb_spec k k0); congruence.
Qed.

Lemma map_insert_keys_in k v m x :
  In x (map fst (map_insert k v m)) <-> x = k \/ In x (map fst m).
Proof.
  induction m as [|[k' v'] m IH]; cbn; [intuition|].
  destruct (val_eqb_spec k' k) as [->|]; cbn; [intuition|].
  rewrite IH. intuition.
Qed.

Lemma map_insert_nodup k v m : NoDup (map fst m) -> NoDup (map fst (map_insert k v m)).
Proof.
  induction m as [|[k' v'] m IH]; cbn; intros H.
  - constructor; [tauto|constructor].
  - inversion H as [|? ? H1 H2]; subst.
    destruct (val_eqb_spec k' k) as [->|]; cbn; [assumption|].
    constructor; [|auto]. rewrite map_insert_keys_in. intros [->|]; congruence.
Qed.

Lemma build_map_is_nodup kvs : NoDup (map fst (build_map kvs)).
Proof.
  unfold build_map.
  assert (G : forall acc, NoDup (map fst acc) ->
     NoDup (map fst (fold_left (fun m p => map_insert (fst p) (snd p) m) kvs acc))).
  { induction kvs as [|p kvs IH]; intros acc H; cbn; [assumption|].
    apply IH, map_insert_nodup, H. }
  apply G. constructor.
Qed.

Lemma build_map_lookup kvs k :
  map_lookup k (build_map kvs) = map_lookup k (rev kvs).
Proof.
  unfold build_map.
  assert (G : forall acc, map_lookup k (fold_left (fun m p => map_insert (fst p) (snd p) m) kvs acc)
     = match map_lookup k (rev kvs) with Some v => Some v | None => map_lookup k acc end).
  { induction kvs as [|[k' v'] kvs IH]; intros acc; cbn; [reflexivity|].
    rewrite IH, map_insert_lookup.
    assert (A : forall l l', map_lookup k (l ++ l') =
        match map_lookup k l with Some v => Some v | None => map_lookup k l' end).
    { clear. induction l as [|[a b] l IH]; intros; cbn; [reflexivity|].
      destruct (val_eqb a k); auto. }
    rewrite A. destruct (map_lookup k (rev kvs)); [reflexivity|]. cbn.
    destruct (val_eqb k' k); reflexivity. }
  rewrite G. cbn. destruct (map_lookup k (rev kvs)); reflexivity.
Qed.

Lemma map_lookup_in k v m : NoDup (map fst m) -> (map_lookup k m = Some v <-> In (k, v) m).
Proof.
  induction m as [|[k' v'] m IH]; cbn; intros H.
  - split; [discriminate|tauto].
  - inversion H as [|? ? H1 H2]; subst.
    destruct (val_eqb_spec k' k) as [->|].
    + split; [intros [= ->]; auto|]. intros [[= ->]|X]; [reflexivity|].
      exfalso. apply H1. now apply (in_map fst) in X.
    + rewrite IH by assumption. split; [auto|]. intros [[= -> ->]|X]; congruence.
Qed.

Lemma map_lookup_perm k m m' :
  Permutation m m' -> NoDup (map fst m) -> map_lookup k m = map_lookup k m'.
Proof.
  intros P H.
  assert (H' : NoDup (map fst m')).
  { eapply Permutation_NoDup; [|exact H]. now apply Permutation_map. }
  destruct (map_lookup k m) as [v|] eqn:E.
  - symmetry. apply map_lookup_in; [assumption|]. eapply Permutation_in; [exact P|].
    now apply map_lookup_in.
  - destruct (map_lookup k m') as [v|] eqn:E'; [|reflexivity].
    apply map_lookup_in in E'; [|assumption].
    apply Permutation_sym in P.
    eapply Permutation_in in E'; [|exact P].
    apply map_lookup_in in E'; [congruence|assumption].
Qed.

Lemma set_insert_in x s y : In y (set_insert x s) <-> y = x \/ In y s.
Proof.
  induction s as [|z s IH]; cbn; [intuition|].
  destruct (val_eqb_spec z x) as [->|]; cbn; [intuition|]. rewrite IH. intuition.
Qed.

Lemma set_insert_nodup x s : NoDup s -> NoDup (set_insert x s).
Proof.
  induction s as [|z s IH]; cbn; intros H.
  - constructor; [tauto|constructor].
  - inversion H as [|? ? H1 H2]; subst.
    destruct (val_eqb_spec z x) as [->|]; [assumption|].
    constructor; [|auto]. rewrite set_insert_in. intros [->|]; congruence.
Qed.

Lemma build_set_spec vs : NoDup (build_set vs) /\ forall x, In x (build_set vs) <-> In x vs.
Proof.
  unfold build_set.
  assert (G : forall acc, NoDup acc ->
    let s := fold_left (fun s x => set_insert x s) vs acc in
    NoDup s /\ forall x, In x s <-> In x acc \/ In x vs).
  { induction vs as [|p vs IH]; intros acc H; cbn.
    - split; [assumption|]. intuition.
    - destruct (IH (set_insert p acc)) as [G1 G2]; [now apply set_insert_nodup|].
      split; [exact G1|]. intros x. rewrite G2, set_insert_in. intuition. }
  destruct (G []) as [G1 G2]; [constructor|]. split; [exact G1|].
  intros x. rewrite G2. cbn. tauto.
Qed.

(** The insert loop keeps only entries it was given. *)
Lemma build_map_incl kvs p : In p (build_map kvs) -> In p kvs.
Proof.
  assert (I : forall k v m, In p (map_insert k v m) -> p = (k, v) \/ In p m).
  { induction m as [|[k' v'] m IH]; cbn.
    - intros [<-|[]]. auto.
    - destruct (val_eqb_spec k' k) as [->|]; cbn; intros [<-|X]; auto. destruct (IH X); auto. }
  assert (G : forall acc, In p (fold_left (fun m p => map_insert (fst p) (snd p) m) kvs acc) ->
     In p acc \/ In p kvs).
  { induction kvs as [|[k v] kvs IH]; intros acc H; cbn in H; [auto|].
    apply IH in H as [H|H]; cbn; auto. apply I in H as [->|H]; auto. }
  intros H. destruct (G [] H) as [[]|]; assumption.
Qed.

(** * Unfolding [write] *)

Fixpoint write_fields (E : env) (ts : list ty) (vs : list val) {struct vs} : res bytes :=
  match ts, vs with
  | [], [] => Ok []
  | t :: ts', v :: vs' =>
    let* a := write E t v in let* b := write_fields E ts' vs' in Ok (a ++ b)
  | _, _ => Err
  end.

Lemma write_rec E n vs :
  write E (TNamed n) (VRec vs) =
  match defs E n with Some (DRecord ts) => write_fields E ts vs | _ => Err end.
Proof.
  cbn [write]. destruct (defs E n) as [[fields| | | |]|]; try reflexivity.
  revert vs. induction fields as [|t ts IH]; intros [|v vs]; try reflexivity.
  cbn. now rewrite IH.
Qed.

Lemma write_enum E n i vs :
  write E (TNamed n) (VEnum i vs) =
  match defs E n with
  | Some (DEnum ne variants) =>
    match nth_error variants i with
    | Some ts => let* b := write_fields E ts vs in Ok (enc 4 (Z.of_nat i + 1) ++ b)
    | None => if ne then Panic else Err
    end
  | _ => Err
  end.
Proof.
  cbn [write]. destruct (defs E n) as [[|ne variants| | |]|]; try reflexivity.
  destruct (nth_error variants i) as [fields|]; [|reflexivity].
  f_equal. revert vs. induction fields as [|t ts IH]; intros [|v vs]; try reflexivity.
  cbn. now rewrite IH.
Qed.

(** * Leaf parsers *)

Lemma modulus_4 : modulus 4 = 4294967296. Proof. vm_compute. reflexivity. Qed.
Lemma modulus_8 : modulus 8 = 18446744073709551616. Proof. vm_compute. reflexivity. Qed.
Lemma half_1 : half 1 = 128. Proof. vm_compute. reflexivity. Qed.
Lemma half_4 : half 4 = 2147483648. Proof. vm_compute. reflexivity. Qed.
Lemma half_8 : half 8 = 9223372036854775808. Proof. vm_compute. reflexivity. Qed.

Lemma get_checked_app k a b : length a = k -> get_checked k (a ++ b) = Ok (a, b).
Proof. intros H. unfold get_checked. now rewrite split_n_app. Qed.

Lemma get_checked_enc k z b : get_checked k (enc k z ++ b) = Ok (enc k z, b).
Proof. apply get_checked_app, enc_length. Qed.

Lemma get_checked_ok k bs a r : get_checked k bs = Ok (a, r) <-> bs = a ++ r /\ length a = k.
Proof.
  unfold get_checked. split.
  - destruct (split_n k bs) as [[a' r']|] eqn:X; intros [= -> ->]. now apply split_n_some.
  - intros [-> H]. now rewrite split_n_app.
Qed.

Lemma put_len_ok n bs : put_len n = Ok bs -> bs = enc 4 (Z.of_nat n) /\ Z.of_nat n <= i32_max.
Proof.
  unfold put_len. destruct (Z.leb_spec (Z.of_nat n) i32_max); intros [= <-]. auto.
Qed.

Lemma get_len_enc n r : Z.of_nat n <= i32_max -> get_len (enc 4 (Z.of_nat n) ++ r) = Ok (n, r).
Proof.
  unfold i32_max. intros H. unfold get_len. rewrite get_checked_enc. cbn [bind].
  rewrite dec_s_enc by (rewrite ?half_4; lia).
  destruct (Z.ltb_spec (Z.of_nat n) 0); [lia|]. now rewrite Nat2Z.id.
Qed.

Lemma read_str_enc s r :
  Z.of_nat (length s) <= i32_max -> utf8_valid s = true ->
  read_str (enc 4 (Z.of_nat (length s)) ++ s ++ r) = Ok (s, r).
Proof.
  intros H V. unfold read_str. rewrite get_len_enc by assumption. cbn [bind].
  rewrite get_checked_app by reflexivity. cbn [bind]. now rewrite V.
Qed.

Lemma dec_s_cons_01 : dec_s (enc 1 0) = 0 /\ dec_s (enc 1 1) = 1.
Proof. split; apply dec_s_enc; rewrite ?half_1; lia. Qed.

Lemma firstn_enc k z b : firstn k (enc k z ++ b) = enc k z.
Proof.
  rewrite firstn_app, enc_length, Nat.sub_diag.
  rewrite <- (enc_length k z) at 1. rewrite firstn_all. cbn. apply app_nil_r.
Qed.
Lemma skipn_enc k z b : skipn k (enc k z ++ b) = b.
Proof.
  rewrite skipn_app, enc_length, Nat.sub_diag.
  rewrite <- (enc_length k z) at 1. rewrite skipn_all. reflexivity.
Qed.

Lemma get12 a n r : get_checked 12 ((enc 8 a ++ enc 4 n) ++ r) = Ok (enc 8 a ++ enc 4 n, r).
Proof. apply get_checked_app. now rewrite app_length, !enc_length. Qed.

Lemma write_time_read t bs r :
  - half 8 <= t / 1000000000 < half 8 -> ~ (-1000000000 < t < 0) ->
  write_time t = Ok bs -> read_time (bs ++ r) = Ok (t, r).
Proof.
  rewrite half_8. unfold write_time. intros R N.
  destruct (Z.leb_spec (Z.abs t / nanos_per_sec) i64_max) as [L|]; intros [= <-].
  unfold read_time. rewrite get12. cbn [bind]. rewrite firstn_enc, skipn_enc.
  unfold nanos_per_sec, i64_max in *.
  pose proof (Z.div_mod (Z.abs t) 1000000000 ltac:(lia)) as DM.
  pose proof (Z.mod_pos_bound (Z.abs t) 1000000000 ltac:(lia)) as MB.
  assert (0 <= Z.abs t / 1000000000) by (apply Z.div_pos; lia).
  remember (Z.abs t / 1000000000) as q eqn:Hq. remember (Z.abs t mod 1000000000) as m eqn:Hm.
  clear Hq Hm.
  assert (D : dec_s (enc 8 ((if 0 <=? t then 1 else -1) * q)) = (if 0 <=? t then q else - q)).
  { rewrite dec_s_enc; [destruct (0 <=? t); lia|lia|]. rewrite half_8.
    destruct (0 <=? t); lia. }
  rewrite D.
  rewrite <- (app_nil_r (enc 4 m)). rewrite app_nil_r. rewrite dec_u_enc by (rewrite modulus_4; lia).
  unfold duration_new, wrapping_abs_as_u64, u64_max, nanos_per_sec.
  rewrite (Z.div_small m) by lia.
  assert (A : Z.abs (if 0 <=? t then q else - q) = q) by (destruct (0 <=? t); lia).
  rewrite A.
  destruct (Z.leb_spec (q + 0) 18446744073709551615); [|lia]. cbn [bind].
  assert (S : (if 0 <=? (if 0 <=? t then q else - q) then q * 1000000000 + m
               else - (q * 1000000000 + m)) = t).
  { destruct (Z.leb_spec 0 t).
    - destruct (Z.leb_spec 0 q); lia.
    - destruct (Z.leb_spec 0 (- q)); lia. }
  rewrite S. unfold time_in_range, i64_max, nanos_per_sec.
  destruct (Z.leb_spec (-(9223372036854775807 + 1)) (t / 1000000000)); [|lia].
  destruct (Z.leb_spec (t / 1000000000) 9223372036854775807); [reflexivity|lia].
Qed.

Lemma write_dur_read d bs r :
  0 <= d / 1000000000 < modulus 8 -> write_dur d = Ok bs -> read_dur (bs ++ r) = Ok (d, r).
Proof.
  rewrite modulus_8. unfold write_dur, nanos_per_sec. intros R [= <-].
  unfold read_dur. rewrite get12. cbn [bind]. rewrite firstn_enc, skipn_enc.
  pose proof (Z.div_mod d 1000000000 ltac:(lia)) as DM.
  pose proof (Z.mod_pos_bound d 1000000000 ltac:(lia)) as MB.
  rewrite !dec_u_enc by (rewrite ?modulus_8, ?modulus_4; lia).
  unfold duration_new, u64_max, nanos_per_sec.
  rewrite (Z.div_small (d mod _)) by lia.
  destruct (Z.leb_spec (d / 1000000000 + 0) 18446744073709551615); [|lia].
  cbn [bind]. repeat f_equal. lia.
Qed.

Lemma wbytes_pos w : (0 < wbytes w)%nat.
Proof. destruct w; cbn; lia. Qed.

(** * Round trip *)

Lemma repeat_read_cat {A} (p : parser A) (w : A -> res bytes) vs :
  Forall (fun v => forall b r, w v = Ok b -> p (b ++ r) = Ok (v, r)) vs ->
  forall b r, cat_res (map w vs) = Ok b -> repeat_read p (length vs) (b ++ r) = Ok (vs, r).
Proof.
  induction 1 as [|v vs Hv _ IH]; cbn; intros b r H.
  - injection H as <-. reflexivity.
  - apply bind_ok in H as (a & Ha & H). apply bind_ok in H as (b' & Hb & [= <-]).
    rewrite <- app_assoc, (Hv _ _ Ha). cbn [bind]. now rewrite (IH _ _ Hb).
Qed.

Lemma in_flat_map_sub (vs : list val) v u :
  In v vs -> In u (subvals v) -> In u (flat_map subvals vs).
Proof. intros. apply in_flat_map. eauto. Qed.

Lemma list_max_in x l : In x l -> (x <= list_max l)%nat.
Proof.
  intros H. assert (L : Forall (fun k => k <= list_max l)%nat l) by now apply list_max_le.
  rewrite Forall_forall in L. auto.
Qed.

Theorem read_write E v : forall t bs rest d,
  has_type E t v -> all_carried E v -> write E t v = Ok bs -> (vdepth v <= d)%nat ->
  read E d t (bs ++ rest) = Ok (v, rest).
Proof.
  unfold all_carried.
  induction v using val_ind'; intros ty bs rest [|d] HT HC HW HD; cbn [vdepth] in HD;
    try lia; inversion HT; subst; clear HT; cbn [read].
  - cbn in HW. injection HW as <-. rewrite get_checked_enc. cbn [bind].
    rewrite dec_s_enc; [reflexivity|apply wbytes_pos|assumption].
  - cbn in HW. injection HW as <-. rewrite get_checked_enc. cbn [bind].
    rewrite dec_u_enc by assumption. reflexivity.
  - cbn in HW. injection HW as <-. rewrite get_checked_enc. cbn [bind].
    rewrite dec_u_enc by assumption. reflexivity.
  - cbn in HW. injection HW as <-. rewrite get_checked_enc. cbn [bind].
    destruct dec_s_cons_01 as [D0 D1]. destruct b; [rewrite D1|rewrite D0]; reflexivity.
  - cbn [write] in HW. unfold write_str in HW. apply bind_ok in HW as (hd & Hh & [= <-]).
    apply put_len_ok in Hh as [-> HL]. rewrite <- app_assoc, read_str_enc by assumption. reflexivity.
  - cbn [write] in HW.
    rewrite (write_time_read t bs rest); [reflexivity|assumption| |assumption].
    apply (HC (VTime t)). cbn; auto.
  - cbn [write] in HW. erewrite write_dur_read; eauto. reflexivity.
  - cbn in HW. injection HW as <-. rewrite get_checked_enc. cbn [bind].
    rewrite (proj1 dec_s_cons_01). reflexivity.
  - cbn [write] in HW. apply bind_ok in HW as (b & Hb & [= <-]).
    rewrite <- app_assoc, get_checked_enc. cbn [bind]. rewrite (proj2 dec_s_cons_01). cbn [Z.eqb Pos.eqb].
    rewrite (IHv t b rest d); [reflexivity|assumption| |assumption|lia]. intros u Hu. apply HC. cbn. auto.
  - cbn [write] in HW. rewrite (IHv t bs rest d); [reflexivity|assumption| |assumption|lia].
    intros u Hu. apply HC. cbn. auto.
  - cbn [write] in HW. apply bind_ok in HW as (hd & Hh & HW). apply bind_ok in HW as (b & Hb & [= <-]).
    apply put_len_ok in Hh as [-> HL]. rewrite <- app_assoc, get_len_enc by assumption. cbn [bind].
    rewrite (repeat_read_cat _ (write E t) vs); [reflexivity| |assumption].
    rewrite Forall_forall in *. intros v Hv b' r Hb'. apply (H v Hv); auto.
    + intros u Hu. apply HC. cbn. right. eapply in_flat_map_sub; eauto.
    + assert (vdepth v <= list_max (map vdepth vs))%nat by (apply list_max_in, in_map, Hv). lia.
  - cbn [write] in HW. apply bind_ok in HW as (hd & Hh & HW). apply bind_ok in HW as (b & Hb & [= <-]).
    apply put_len_ok in Hh as [-> HL]. rewrite <- app_assoc, get_len_enc by assumption. cbn [bind].
    erewrite (repeat_read_cat (read_pair (read E d tk) (read E d tv)) _ kvs); [cbn [bind]|clear Hb|exact Hb].
    { now rewrite build_map_nodup. }
    rewrite Forall_forall in *. intros [k v] Hkv b' r Hb'. cbn [fst snd] in Hb'.
    destruct (H _ Hkv) as [IHk IHv']. cbn [fst snd] in *.
    apply bind_ok in Hb' as (bk & Hk & Hb'). apply bind_ok in Hb' as (bv & Hv & [= <-]).
    assert (M : (Nat.max (vdepth k) (vdepth v) <= list_max (map (fun p => Nat.max (vdepth (fst p)) (vdepth (snd p))) kvs))%nat).
    { apply list_max_in. apply in_map_iff. exists (k, v). auto. }
    unfold read_pair. rewrite <- app_assoc.
    assert (SB : forall u, In u (subvals k) \/ In u (subvals v) -> carried E u).
    { intros u Hu. apply HC. cbn. right. apply in_flat_map. exists (k, v). split; [exact Hkv|].
      apply in_app_iff. exact Hu. }
    rewrite (IHk tk bk (bv ++ r) d); auto; [|exact (H1 _ Hkv)|lia]. cbn [bind].
    rewrite (IHv' tv bv r d); auto; [exact (H2 _ Hkv)|lia].
  - cbn [write] in HW. apply bind_ok in HW as (hd & Hh & HW). apply bind_ok in HW as (b & Hb & [= <-]).
    apply put_len_ok in Hh as [-> HL]. rewrite <- app_assoc, get_len_enc by assumption. cbn [bind].
    rewrite (repeat_read_cat _ (write E t) vs); [|clear Hb|assumption].
    { cbn [bind]. now rewrite build_set_nodup. }
    rewrite Forall_forall in *. intros v Hv b' r Hb'. apply (H v Hv); auto.
    + intros u Hu. apply HC. cbn. right. eapply in_flat_map_sub; eauto.
    + assert (vdepth v <= list_max (map vdepth vs))%nat by (apply list_max_in, in_map, Hv). lia.
  - rewrite write_rec in HW. rewrite H1 in *.
    assert (G : forall rest, read_all (read E d) ts (bs ++ rest) = Ok (vs, rest)); [|now rewrite G].
    assert (SB : forall u, In u (flat_map subvals vs) -> carried E u) by (intros; apply HC; cbn; auto).
    assert (DP : forall u, In u vs -> (vdepth u <= d)%nat).
    { intros u Hu. assert (vdepth u <= list_max (map vdepth vs))%nat by (apply list_max_in, in_map, Hu). lia. }
    clear HC HD H1. revert bs HW. clear rest. induction H3 as [|t v ts vs HT HTs IH]; intros bs HW rest; cbn in HW.
    + injection HW as <-. reflexivity.
    + apply bind_ok in HW as (a & Ha & HW). apply bind_ok in HW as (b & Hb & [= <-]).
      inversion H as [|? ? Hv Hvs]; subst. cbn [read_all].
      rewrite <- app_assoc. rewrite (Hv t a (b ++ rest) d); auto.
      * cbn [bind]. rewrite IH; auto.
        { intros u Hu. apply SB. cbn. apply in_app_iff. auto. }
        { intros u Hu. apply DP. cbn; auto. }
      * intros u Hu. apply SB. cbn. apply in_app_iff. auto.
      * apply DP. cbn; auto.
  - rewrite write_enum in HW. rewrite H2 in *. rewrite H3 in HW.
    apply bind_ok in HW as (fb & HW & [= <-]).
    rewrite <- app_assoc, get_checked_enc. cbn [bind]. unfold i32_max in *.
    rewrite dec_s_enc by (rewrite ?half_4; lia).
    destruct (Z.ltb_spec (Z.of_nat i + 1) 1); [lia|].
    replace (Z.to_nat (Z.of_nat i + 1 - 1)) with i by lia. rewrite H3.
    assert (G : forall rest, read_all (read E d) ts (fb ++ rest) = Ok (vs, rest)); [|now rewrite G].
    assert (SB : forall u, In u (flat_map subvals vs) -> carried E u) by (intros; apply HC; cbn; auto).
    assert (DP : forall u, In u vs -> (vdepth u <= d)%nat).
    { intros u Hu. assert (vdepth u <= list_max (map vdepth vs))%nat by (apply list_max_in, in_map, Hu). lia. }
    clear HC HD H2 H3. revert fb HW. clear rest. induction H6 as [|t v ts vs HT HTs IH]; intros fb HW rest; cbn in HW.
    + injection HW as <-. reflexivity.
    + apply bind_ok in HW as (a & Ha & HW). apply bind_ok in HW as (b & Hb & [= <-]).
      inversion H as [|? ? Hv Hvs]; subst. cbn [read_all].
      rewrite <- app_assoc. rewrite (Hv t a (b ++ rest) d); auto.
      * cbn [bind]. rewrite IH; auto.
        { intros u Hu. apply SB. cbn. apply in_app_iff. auto. }
        { intros u Hu. apply DP. cbn; auto. }
      * intros u Hu. apply SB. cbn. apply in_app_iff. auto.
      * apply DP. cbn; auto.
  - exfalso. apply (HC (VFlat i m)). cbn; auto.
  - cbn [write] in HW. rewrite H0 in *. injection HW as <-. rewrite get_checked_enc. cbn [bind].
    rewrite dec_u_enc by assumption. reflexivity.
  - cbn [write] in HW. match goal with H : defs E n = _ |- _ => rewrite H in * end.
    rewrite String.eqb_refl in HW.
    rewrite (IHv b bs rest d); [|assumption|intros u Hu; apply HC; cbn; auto|assumption|lia]. cbn [bind].
    assert (C : carried E (VCustom n v)) by (apply HC; cbn; auto). cbn in C. rewrite C. reflexivity.
Qed.
