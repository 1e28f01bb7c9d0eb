(** Induction, equality of keys, dictionaries and sets of Swift values. *)
From Verif Require Import Base Utf8 Wire_Model Wire_Spec Wire_Proofs Fgn_Spec Fgn_Proofs Fgn_Proofs4
  Swf_Model Swf_Spec.
Local Open Scope Z_scope.

Section SvalInd.
  Variable P : sval -> Prop.
  Hypothesis HInt : forall z, P (SInt z).
  Hypothesis HFloat : forall z, P (SFloat z).
  Hypothesis HBool : forall b, P (SBool b).
  Hypothesis HStr : forall s, P (SStr s).
  Hypothesis HData : forall s, P (SData s).
  Hypothesis HDate : forall t, P (SDate t).
  Hypothesis HInterval : forall t, P (SInterval t).
  Hypothesis HNil : P SNil.
  Hypothesis HSome : forall v, P v -> P (SSome v).
  Hypothesis HArr : forall vs, Forall P vs -> P (SArr vs).
  Hypothesis HDict : forall kvs, Forall (fun p => P (fst p) /\ P (snd p)) kvs -> P (SDict kvs).
  Hypothesis HSet : forall vs, Forall P vs -> P (SSet vs).
  Hypothesis HStruct : forall vs, Forall P vs -> P (SStruct vs).
  Hypothesis HCase : forall i vs, Forall P vs -> P (SCase i vs).
  Hypothesis HFlat : forall i m, P (SFlat i m).
  Hypothesis HRef : forall h, P (SRef h).

  Fixpoint sval_ind' (v : sval) : P v :=
    let lst := (fix go (vs : list sval) : Forall P vs :=
                  match vs with
                  | [] => Forall_nil _
                  | x :: xs => Forall_cons _ (sval_ind' x) (go xs)
                  end) in
    match v with
    | SInt z => HInt z
    | SFloat z => HFloat z
    | SBool b => HBool b
    | SStr s => HStr s
    | SData s => HData s
    | SDate t => HDate t
    | SInterval t => HInterval t
    | SNil => HNil
    | SSome v' => HSome _ (sval_ind' v')
    | SArr vs => HArr _ (lst vs)
    | SDict kvs =>
      HDict _ ((fix go (kvs : list (sval * sval)) : Forall (fun p => P (fst p) /\ P (snd p)) kvs :=
                 match kvs with
                 | [] => Forall_nil _
                 | p :: r => Forall_cons _ (conj (sval_ind' (fst p)) (sval_ind' (snd p))) (go r)
                 end) kvs)
    | SSet vs => HSet _ (lst vs)
    | SStruct vs => HStruct _ (lst vs)
    | SCase i vs => HCase i _ (lst vs)
    | SFlat i m => HFlat i m
    | SRef h => HRef h
    end.
End SvalInd.

Definition svals_eqb : list sval -> list sval -> bool :=
  fix go (xs ys : list sval) {struct xs} : bool :=
    match xs, ys with
    | [], [] => true
    | x :: xs', y :: ys' => sval_eqb x y && go xs' ys'
    | _, _ => false
    end.

Lemma sval_eqb_eq a : forall b, sval_eqb a b = true <-> a = b.
Proof.
  assert (L : forall xs ys, Forall (fun x => forall y, sval_eqb x y = true <-> x = y) xs ->
              (svals_eqb xs ys = true <-> xs = ys)).
  { intros xs ys H; revert ys; induction H as [|x xs Hx _ IH]; intros [|y ys]; cbn;
      try (split; congruence).
    rewrite andb_true_iff, Hx. fold (svals_eqb xs ys). rewrite IH.
    split; [intros [-> ->]; reflexivity | intros [= -> ->]; auto]. }
  induction a using sval_ind'; intros []; cbn [sval_eqb]; try (split; congruence);
    try (fold svals_eqb; rewrite L by assumption; split; congruence);
    try (rewrite Z.eqb_eq; split; congruence);
    fold svals_eqb.
  - rewrite Bool.eqb_true_iff. split; congruence.
  - destruct (bytes_eqb_spec s s0); split; congruence.
  - destruct (bytes_eqb_spec s s0); split; congruence.
  - rewrite IHa. split; congruence.
  - match goal with |- ?f kvs kvs0 = true <-> _ => set (go := f) end.
    assert (M : forall ys, go kvs ys = true <-> kvs = ys).
    { induction H as [|[k v] xs [Hk Hv] _ IH]; intros [|[k' v'] ys]; cbn;
        try (split; congruence).
      cbn in Hk, Hv. rewrite !andb_true_iff, Hk, Hv. fold go. rewrite IH.
      split; [intros [[-> ->] ->]; reflexivity | intros [= -> -> ->]; auto]. }
    rewrite M. split; congruence.
  - rewrite !andb_true_iff, Nat.eqb_eq, L by assumption.
    split; [intros [-> ->]; reflexivity|intros [= -> ->]; auto].
  - rewrite !andb_true_iff, Nat.eqb_eq. destruct (bytes_eqb_spec m msg).
    + split; [intros [-> _]; congruence|intros [= -> ->]; auto].
    + split; [intros [_ X]; discriminate|congruence].
Qed.

Lemma key_neq W a b : norm W a <> norm W b -> key_eqb W a b = false.
Proof.
  intros N. unfold key_eqb. destruct (sval_eqb _ _) eqn:X; [|reflexivity]. now apply sval_eqb_eq in X.
Qed.
Lemma key_eq W a b : norm W a = norm W b -> key_eqb W a b = true.
Proof. intros N. apply sval_eqb_eq, N. Qed.

(** * Dictionaries and sets *)

Definition keys (W : swift) (m : list (sval * sval)) : list sval := map (norm W) (map fst m).

Lemma dict_set_fresh W k v m : ~ In (norm W k) (keys W m) -> dict_set W k v m = m ++ [(k, v)].
Proof.
  induction m as [|[k' v'] m IH]; cbn [dict_set keys map fst]; intros N; [reflexivity|].
  rewrite key_neq by (intros E; apply N; left; exact E).
  rewrite IH by (intros I; apply N; right; exact I). reflexivity.
Qed.

Lemma dict_of_gen W kvs : forall acc, NoDup (keys W acc ++ keys W kvs) ->
  fold_left (fun m p => dict_set W (fst p) (snd p) m) kvs acc = acc ++ kvs.
Proof.
  induction kvs as [|[k v] kvs IH]; cbn [fold_left]; intros acc ND.
  - now rewrite app_nil_r.
  - cbn [fst snd]. rewrite dict_set_fresh.
    + rewrite IH; [now rewrite <- app_assoc|].
      unfold keys. rewrite !map_app, <- app_assoc. exact ND.
    + apply NoDup_remove_2 in ND. intros I. apply ND, in_app_iff. now left.
Qed.

Lemma dict_of_nodup W kvs : NoDup (map (norm W) (map fst kvs)) -> dict_of W kvs = kvs.
Proof. intros H. unfold dict_of. now rewrite dict_of_gen. Qed.

Lemma set_insert_fresh W x s : ~ In (norm W x) (map (norm W) s) -> set_insert W x s = s ++ [x].
Proof.
  induction s as [|y s IH]; cbn [set_insert map]; intros N; [reflexivity|].
  rewrite key_neq by (intros E; apply N; left; exact E).
  rewrite IH by (intros I; apply N; right; exact I). reflexivity.
Qed.

Lemma set_of_gen W vs : forall acc, NoDup (map (norm W) acc ++ map (norm W) vs) ->
  fold_left (fun s x => set_insert W x s) vs acc = acc ++ vs.
Proof.
  induction vs as [|v vs IH]; cbn [fold_left]; intros acc ND.
  - now rewrite app_nil_r.
  - rewrite set_insert_fresh.
    + rewrite IH; [now rewrite <- app_assoc|]. rewrite map_app, <- app_assoc. exact ND.
    + apply NoDup_remove_2 in ND. intros I. apply ND, in_app_iff. now left.
Qed.

Lemma set_of_nodup W vs : NoDup (map (norm W) vs) -> set_of W vs = vs.
Proof. intros H. unfold set_of. now rewrite set_of_gen. Qed.

Lemma is_byte_true t : is_byte t = true -> t = TInt false W8.
Proof. destruct t as [[] []| | | | | | | | | | |]; cbn; congruence. Qed.
Lemma is_byte_false t : is_byte t = false <-> t <> TInt false W8.
Proof. destruct t as [[] []| | | | | | | | | | |]; cbn; split; congruence. Qed.

Lemma slen_enc n rest : Z.of_nat n <= i32_max -> slen (enc 4 (Z.of_nat n) ++ rest) = Ok (n, rest).
Proof.
  intros H. unfold slen. rewrite get_checked_enc. cbn [bind]. unfold i32_max in H.
  rewrite dec_s_enc by (rewrite ?half_4; lia).
  destruct (Z.ltb_spec (Z.of_nat n) 0); [lia|]. now rewrite Nat2Z.id.
Qed.

Lemma put_slen_len n hd : put_slen n = Ok hd <-> put_len n = Ok hd.
Proof.
  unfold put_slen, put_len, i32_max. rewrite half_4.
  destruct (Z.ltb_spec (Z.of_nat n) 2147483648), (Z.leb_spec (Z.of_nat n) 2147483647); (lia || tauto).
Qed.

Lemma plain_sub E k k' : (forall u, uses E k' u -> uses E k u) -> plain_key E k -> plain_key E k'.
Proof. intros S' H u U. apply H, S', U. Qed.
Lemma plains_sub E k k' : (forall u, uses E k' u -> uses E k u) -> plain_keys E k -> plain_keys E k'.
Proof. intros S' H u U. apply H, S', U. Qed.

(** * Keys that differ in Rust differ in Swift, up to canonical equivalence *)

Section Canon.
  Variable W : swift.
  Variable R : clock.
  Variable E : env.
  Notation can := (canonical (canon W)).

  Lemma sames_canon ts vs :
    Forall (fun v => forall t v' s s', plain_key E t -> same R E t v s -> same R E t v' s' ->
              norm W s = norm W s' -> can v = can v') vs ->
    forall vs' ss ss', Forall (plain_key E) ts -> sames R E ts vs ss -> sames R E ts vs' ss' ->
    map (norm W) ss = map (norm W) ss' -> map can vs = map can vs'.
  Proof.
    intros H; revert ts; induction H as [|v vs H _ IH]; intros ts vs' ss ss' P A1 A2 N;
      inversion A1; subst; inversion A2; subst; [reflexivity|].
    inversion P; subst. cbn [map] in N |- *. injection N as N1 N2. f_equal; eauto.
  Qed.

  Lemma list_canon (Q : val -> sval -> Prop) vs :
    Forall (fun v => forall v' s s', Q v s -> Q v' s' -> norm W s = norm W s' -> can v = can v') vs ->
    forall vs' ss ss', Forall2 Q vs ss -> Forall2 Q vs' ss' ->
    map (norm W) ss = map (norm W) ss' -> map can vs = map can vs'.
  Proof.
    induction 1 as [|v vs H _ IH]; intros vs' ss ss' A1 A2 N; inversion A1; subst; inversion A2; subst;
      cbn [map] in N |- *; try discriminate N; [reflexivity|].
    injection N as N1 N2. f_equal; eauto.
  Qed.

  Lemma same_canon v : forall t v' s s', plain_key E t -> same R E t v s -> same R E t v' s' ->
    norm W s = norm W s' -> can v = can v'.
  Proof.
    induction v using val_ind'; intros ty v' s1 s2 P H1 H2 N; inversion H1; subst;
      inversion H2; subst; cbn [norm] in N; try discriminate N; try congruence;
      try (exfalso; exact (P _ (uses_refl _ _)));
      try (injection N as N; cbn [canonical]; congruence).
    - cbn [canonical]. f_equal. injection N as N. eapply IHv; [|eassumption..].
      eapply plain_sub; [|exact P]. intros; now constructor.
    - cbn [canonical]. f_equal. eapply IHv; [|eassumption..].
      eapply plain_sub; [|exact P]. intros; now constructor.
    - injection N as N. cbn [canonical]. f_equal. eapply (list_canon (same R E t)); [|eassumption..].
      rewrite Forall_forall in *. intros v Hv w a b A B. refine (H v Hv t w a b _ A B).
      eapply plain_sub; [|exact P]. intros; now constructor.
    - match goal with X : defs E n = Some (DRecord ts), Y : defs E n = Some (DRecord ts0) |- _ =>
        rewrite X in Y; injection Y as <-; rename X into D end.
      injection N as N. cbn [canonical]. f_equal. eapply sames_canon; [exact H| |eassumption..].
      apply Forall_forall. intros t Ht. eapply plain_sub; [|exact P]. intros; eapply uses_field; eauto.
    - match goal with X : defs E n = Some (DEnum ne variants), Y : defs E n = Some (DEnum _ variants0) |- _ =>
        rewrite X in Y; injection Y as <- <-; rename X into D end.
      injection N as NI N. subst.
      match goal with X : nth_error variants ?j = Some ts, Y : nth_error variants ?j = Some ts0 |- _ =>
        rewrite X in Y; injection Y as <-; rename X into DV end.
      cbn [canonical]. f_equal. eapply sames_canon; [exact H| |eassumption..].
      apply Forall_forall. intros t Ht. eapply plain_sub; [|exact P].
      intros; eapply uses_variant; eauto using nth_error_In.
    - match goal with X : defs E n = Some (DCustom b), Y : defs E n = Some (DCustom b0) |- _ =>
        rewrite X in Y; injection Y as <-; rename X into D end.
      cbn [canonical]. f_equal. eapply IHv; [|eassumption..]. eapply plain_sub; [|exact P].
      intros; eapply uses_builtin; eauto.
  Qed.

  Lemma norm_nodup t vs ss : plain_key E t -> Forall2 (same R E t) vs ss ->
    NoDup (map can vs) -> NoDup (map (norm W) ss).
  Proof.
    intros P F N. induction F as [|v s vs ss Hvs F IH]; [constructor|].
    cbn [map] in *. inversion N as [|? ? N1 N2]; subst. constructor; [|auto]. intros I.
    apply in_map_iff in I as (s' & E1 & I). destruct (Forall2_in_r' _ _ _ _ F I) as (w & Iw & Hw).
    apply N1. apply in_map_iff. exists w. split; [|exact Iw]. symmetry. eapply same_canon; eauto.
  Qed.
End Canon.

(** * A Rust value has one counterpart as a key *)

Section Fun.
  Variable R : clock.
  Variable E : env.

  Lemma sames_fun ts vs :
    Forall (fun v => forall t f f', plain_key E t -> same R E t v f -> same R E t v f' -> f = f') vs ->
    forall fs fs', Forall (plain_key E) ts -> sames R E ts vs fs -> sames R E ts vs fs' -> fs = fs'.
  Proof.
    intros H; revert ts; induction H as [|v vs H _ IH]; intros ts fs fs' I A1 A2;
      inversion A1; subst; inversion A2; subst; [reflexivity|].
    inversion I; subst. f_equal; eauto.
  Qed.

  Lemma same_fun v : forall t f f', plain_key E t -> same R E t v f -> same R E t v f' -> f = f'.
  Proof.
    induction v using val_ind'; intros ty f f' P H1 H2; inversion H1; subst; inversion H2; subst;
      try reflexivity; try congruence;
      try (exfalso; exact (P _ (uses_refl _ _)));
      try (f_equal; eauto; fail).
    - f_equal. eapply IHv; [|eassumption..]. eapply plain_sub; [|exact P]. intros; now constructor.
    - eapply IHv; [|eassumption..]. eapply plain_sub; [|exact P]. intros; now constructor.
    - match goal with X : map _ ?a = map _ ?b |- SData _ = SData _ => rename X into M end.
      f_equal. revert M. clear. revert bs0. induction bs as [|b bs IH]; intros [|b' bs'] M; cbn in M;
        try congruence. injection M as M1 M2. f_equal; [|auto].
      apply b2n_inj. lia.
    - f_equal. eapply Forall2_inj; [|eassumption..]. rewrite Forall_forall in *.
      intros v Hv f f' A B. refine (H v Hv t f f' _ A B). eapply plain_sub; [|exact P]. intros; now constructor.
    - f_equal. match goal with X : defs E n = Some (DRecord ts), Y : defs E n = _ |- _ =>
        rewrite X in Y; injection Y as <- end.
      refine (sames_fun ts vs H ss ss0 _ _ _); [|assumption..]. apply Forall_forall. intros t Ht.
      eapply plain_sub; [|exact P]. intros; eapply uses_field; eauto.
    - match goal with X : defs E n = Some (DEnum _ variants), Y : defs E n = _ |- _ =>
        rewrite X in Y; injection Y as <- <- end.
      match goal with X : nth_error variants i = Some ts, Y : nth_error variants i = _ |- _ =>
        rewrite X in Y; injection Y as <- end.
      f_equal. refine (sames_fun ts vs H ss ss0 _ _ _); [|assumption..]. apply Forall_forall. intros t Ht.
      eapply plain_sub; [|exact P]. intros; eapply uses_variant; eauto using nth_error_In.
    - match goal with X : defs E n = Some (DCustom b), Y : defs E n = _ |- _ =>
        rewrite X in Y; injection Y as <- end.
      eapply IHv; [|eassumption..]. eapply plain_sub; [|exact P]. intros; eapply uses_builtin; eauto.
  Qed.
End Fun.
