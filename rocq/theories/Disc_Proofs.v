(** Proofs for C36. *)
From Verif Require Import Base Meta_Types Disc_Model Disc_Spec.
Local Open Scope Z_scope.

Lemma pow63 : 2 ^ 63 = 9223372036854775808. Proof. reflexivity. Qed.
Lemma pow64 : 2 ^ 64 = 18446744073709551616. Proof. reflexivity. Qed.

(** An integer literal that fits its Rust type. *)
Definition int_lit (l : literal) (z : Z) : Prop :=
  match l with
  | LUInt v _ _ => v = z /\ 0 <= z < 2 ^ 64
  | LInt v _ _ => v = z /\ - 2 ^ 63 <= z < 2 ^ 63
  | _ => False
  end.

Definition is_uint (l : literal) : Prop := match l with LUInt _ _ _ => True | _ => False end.

Lemma in_range_64 t z : in_range t z -> - 2 ^ 63 <= z < 2 ^ 64.
Proof.
  rewrite pow63, pow64. destruct t; cbn [in_range]; rewrite ?pow63, ?pow64; intros H;
    try contradiction; cbn in *; lia.
Qed.

Lemma in_range_signed t z : in_range t z -> unsigned (Some t) = false -> - 2 ^ 63 <= z < 2 ^ 63.
Proof.
  rewrite pow63. destruct t; cbn [in_range unsigned]; rewrite ?pow63; intros H E;
    try contradiction; try discriminate; cbn in *; lia.
Qed.

Lemma in_range_unsigned t z : in_range t z -> unsigned (Some t) = true -> 0 <= z < 2 ^ 64.
Proof.
  rewrite pow64. destruct t; cbn [in_range unsigned]; rewrite ?pow64; intros H E;
    try contradiction; try discriminate; cbn in *; lia.
Qed.

(** ** The pipeline *)

Section pipeline.
  Variable signed : bool.

  (** Values stay inside [i64] for signed representations, inside [u64] for unsigned ones. *)
  Definition fits (z : Z) : Prop := if signed then - 2 ^ 63 <= z < 2 ^ 63 else 0 <= z < 2 ^ 64.

  Lemma loop_spec : forall vs rs prev last mx mn,
    Forall2 recorded vs rs ->
    (forall n m, In (Written n m) vs -> 0 <= m /\ (signed = false -> n = false)) ->
    (forall z, In z (rustc_discrs prev vs) -> fits z) ->
    match prev, last with
    | None, None => True
    | Some p, Some l => int_lit l p /\ (signed = false -> is_uint l)
    | _, _ => False
    end ->
    exists lits mx' mn',
      discr_loop signed rs last mx mn = Ok (lits, mx', mn') /\
      Forall2 int_lit lits (rustc_discrs prev vs) /\
      mx <= mx' /\ mn' <= mn /\
      (forall z, In z (rustc_discrs prev vs) -> mn' <= z \/ 0 <= z) /\
      (forall z, In z (rustc_discrs prev vs) -> z <= mx' \/ z < 0) /\
      (mx' = mx \/ In mx' (rustc_discrs prev vs)) /\ (mn' = mn \/ In mn' (rustc_discrs prev vs)).
  Proof.
    rewrite ?pow63, ?pow64.
    induction vs as [|v vs IH]; intros rs prev last mx mn R W F L.
    - inversion R; subst. exists [], mx, mn. cbn. repeat split; auto; try lia; try constructor;
        intros z [].
    - inversion R as [|? r ? rs' RV R']; subst. cbn [discr_loop rustc_discrs].
      set (d := match v with Written n m => value n m
                | Nothing => match prev with Some p => p + 1 | None => 0 end end) in *.
      assert (FD : fits d) by (apply F; left; reflexivity).
      assert (N : exists l, next_discr signed last r = Ok l /\ int_lit l d /\
                            (signed = false -> is_uint l)).
      { destruct v as [|n m].
        - cbn in RV. subst r. cbn [next_discr]. destruct prev as [p|], last as [l|]; try contradiction.
          + destruct L as [L1 L2]. unfold fits in FD. rewrite pow63, pow64 in FD.
            destruct l; cbn in L1; try contradiction; destruct L1 as [-> L1];
              rewrite ?pow63, ?pow64 in L1; subst d; cbn [next_discr].
            * rewrite pow64. destruct (Z.ltb_spec (p + 1) 18446744073709551616) as [Q|Q].
              -- eexists. split; [reflexivity|]. cbn [int_lit is_uint]. rewrite ?pow64. split; [lia|tauto].
              -- exfalso. destruct signed; lia.
            * rewrite pow63. destruct (Z.ltb_spec (p + 1) 9223372036854775808) as [Q|Q].
              -- eexists. split; [reflexivity|]. cbn [int_lit is_uint]. rewrite ?pow63. split; [lia|].
                 intros S0. exact (L2 S0).
              -- exfalso. destruct signed; [lia|]. exact (L2 eq_refl).
          + destruct signed; eexists; (split; [reflexivity|]); cbn [int_lit is_uint]; rewrite ?pow63, ?pow64;
              subst d; (split; [lia|]); intros; [discriminate|exact I].
        - destruct RV as [l [-> RD]]. cbn [next_discr]. exists l. split; [reflexivity|].
          destruct (W n m (or_introl eq_refl)) as [M NS].
          unfold read_discr in RD. rewrite pow63, pow64 in RD. destruct n; subst d; cbn [value] in *.
          + destruct (Z.leb_spec m 9223372036854775808) as [Q|Q]; [|discriminate].
            injection RD as <-. cbn [int_lit is_uint]. rewrite ?pow63. split; [lia|].
            intros S0. specialize (NS S0). discriminate.
          + destruct (Z.ltb_spec m 18446744073709551616) as [Q|Q]; [|discriminate].
            injection RD as <-. cbn [int_lit is_uint]. rewrite ?pow64. split; [lia|]. tauto. }
      destruct N as [l [-> [IL UL]]]. cbn [bind].
      assert (M : exists mx1 mn1,
                match l with
                | LUInt v _ _ => Ok (Z.max mx v, mn)
                | LInt v _ _ => if 0 <=? v then Ok (Z.max mx v, mn) else Ok (mx, Z.min mn v)
                | _ => Panic
                end = Ok (mx1, mn1) /\ mx <= mx1 /\ mn1 <= mn /\
                (mn1 <= d \/ 0 <= d) /\ (d <= mx1 \/ d < 0) /\
                (mx1 = mx \/ mx1 = d) /\ (mn1 = mn \/ mn1 = d)).
      { destruct l; cbn in IL; try contradiction; destruct IL as [-> IL].
        - exists (Z.max mx d), mn. split; [reflexivity|]. lia.
        - destruct (Z.leb_spec 0 d) as [Q|Q].
          + exists (Z.max mx d), mn. split; [reflexivity|]. lia.
          + exists mx, (Z.min mn d). split; [reflexivity|]. lia. }
      destruct M as [mx1 [mn1 [-> [A1 [A2 [A3 [A4 [A5 A6]]]]]]]]. cbn [bind fst snd].
      destruct (IH rs' (Some d) (Some l) mx1 mn1 R') as [lits [mx' [mn' [E [FL [B1 [B2 [B3 [B4 [B5 B6]]]]]]]]]].
      + intros n m I. apply W. right. exact I.
      + intros z I. apply F. right. exact I.
      + split; assumption.
      + rewrite E. cbn [bind fst snd]. exists (l :: lits), mx', mn'.
        split; [reflexivity|]. split; [constructor; assumption|]. split; [lia|]. split; [lia|].
        split; [intros z [<-|I]; [lia | exact (B3 z I)]|].
        split; [intros z [<-|I]; [lia | exact (B4 z I)]|].
        split.
        * destruct B5 as [->|B5]; [|right; right; exact B5].
          destruct A5 as [-> | ->]; [left; reflexivity | right; left; reflexivity].
        * destruct B6 as [->|B6]; [|right; right; exact B6].
          destruct A6 as [-> | ->]; [left; reflexivity | right; left; reflexivity].
  Qed.
End pipeline.

Lemma shown_set t l z : int_lit l z -> shown (set_type t l) = Some z /\
  shown_type (set_type t l) = Some t.
Proof. destruct l; cbn; intros H; try contradiction; destruct H as [-> _]; auto. Qed.

Lemma pipeline_discriminants repr vs rs :
  integer_repr repr ->
  accepted repr vs -> Forall2 recorded vs rs ->
  exists t lits, determine_discriminants repr rs = Ok (t, lits) /\
    map shown lits = map Some (rustc_discrs None vs) /\
    Forall (fun l => shown_type l = Some t) lits /\
    Forall (in_range t) (rustc_discrs None vs) /\
    (forall r, repr = Some r -> t = r).
Proof.
  intros IT [AC W] R. unfold determine_discriminants.
  assert (SG : exists signed, repr_signed repr = Ok signed /\ unsigned repr = negb signed).
  { destruct repr as [t|]; [|exists true; auto]. destruct IT as [z IT].
    destruct t; cbn in IT; try contradiction; cbn; eauto. }
  destruct SG as [signed [-> US]]. cbn [bind].
  destruct (loop_spec signed vs rs None None 0 0 R)
    as [lits [mx [mn [-> [FL [M1 [M2 [M3 [M4 [M5 M6]]]]]]]]]].
  - intros n m I. destruct (W n m I) as [A B]. split; [exact A|]. intros ->. apply B. exact US.
  - intros z I. specialize (AC z I). unfold fits. destruct signed.
    + destruct repr as [t|]; [exact (in_range_signed t z AC US)|].
      exact (in_range_signed TI64 z AC eq_refl).
    + destruct repr as [t|]; [|discriminate]. exact (in_range_unsigned t z AC US).
  - exact I.
  - cbn [bind].
    assert (CT : exists t, choose_type repr mx mn = Ok t /\
               Forall (in_range t) (rustc_discrs None vs) /\ forall r, repr = Some r -> t = r).
    { destruct repr as [t|]; cbn [choose_type].
      - exists t. split; [reflexivity|]. split; [apply Forall_forall; exact AC | congruence].
      - assert (MX : mx <= 2 ^ 63 - 1).
        { rewrite pow63. destruct M5 as [->|M5]; [lia|]. specialize (AC _ M5). cbn [in_range] in AC.
          rewrite pow63 in AC. lia. }
        assert (MN : - 2 ^ 63 <= mn).
        { rewrite pow63. destruct M6 as [->|M6]; [lia|]. specialize (AC _ M6). cbn [in_range] in AC.
          rewrite pow63 in AC. lia. }
        assert (BND : forall z, In z (rustc_discrs None vs) -> mn <= z <= mx).
        { intros z I. specialize (M3 z I). specialize (M4 z I). lia. }
        destruct ((- 2 ^ 7 <=? mn) && (mx <=? 2 ^ 7 - 1)) eqn:C1.
        { exists TI8. split; [reflexivity|]. split; [|discriminate]. apply Forall_forall.
          intros z I. specialize (BND z I). apply andb_true_iff in C1. cbn [in_range].
          destruct C1 as [C1 C2]. apply Z.leb_le in C1, C2. lia. }
        destruct ((- 2 ^ 15 <=? mn) && (mx <=? 2 ^ 15 - 1)) eqn:C2.
        { exists TI16. split; [reflexivity|]. split; [|discriminate]. apply Forall_forall.
          intros z I. specialize (BND z I). apply andb_true_iff in C2. cbn [in_range].
          destruct C2 as [C2 C3]. apply Z.leb_le in C2, C3. lia. }
        destruct ((- 2 ^ 31 <=? mn) && (mx <=? 2 ^ 31 - 1)) eqn:C3.
        { exists TI32. split; [reflexivity|]. split; [|discriminate]. apply Forall_forall.
          intros z I. specialize (BND z I). apply andb_true_iff in C3. cbn [in_range].
          destruct C3 as [C3 C4]. apply Z.leb_le in C3, C4. lia. }
        destruct (Z.leb_spec mx (2 ^ 63 - 1)) as [Q|Q]; [|lia].
        exists TI64. split; [reflexivity|]. split; [|discriminate]. apply Forall_forall.
        intros z I. exact (AC z I). }
    destruct CT as [t [-> [RG RT]]]. cbn [bind]. exists t, (map (set_type t) lits).
    split; [reflexivity|]. split; [|split; [|split; [exact RG | exact RT]]].
    + clear -FL. induction FL as [|l z ls zs H FL IH]; [reflexivity|]. cbn.
      rewrite (proj1 (shown_set t l z H)), IH. reflexivity.
    + clear -FL. induction FL as [|l z ls zs H FL IH]; constructor; auto.
      exact (proj2 (shown_set t l z H)).
Qed.

(** ** The component interface *)

Lemma ci_spec : forall vs rs prev next,
  Forall2 recorded vs rs -> (forall n m, In (Written n m) vs -> 0 <= m) ->
  (forall z, In z (rustc_discrs prev vs) -> - 2 ^ 63 <= z < 2 ^ 63) ->
  next = as_u64 (match prev with Some p => p + 1 | None => 0 end) ->
  exists ls, variant_discrs next rs = Ok ls /\ map shown ls = map Some (rustc_discrs prev vs).
Proof.
  unfold as_u64. rewrite ?pow63, ?pow64.
  induction vs as [|v vs IH]; intros rs prev next R W F E.
  - inversion R; subst. exists []. auto.
  - inversion R as [|? r ? rs' RV R']; subst. cbn [variant_discrs rustc_discrs].
    set (d := match v with Written n m => value n m
              | Nothing => match prev with Some p => p + 1 | None => 0 end end) in *.
    assert (FD : - 9223372036854775808 <= d < 9223372036854775808)
      by (apply F; left; reflexivity).
    assert (V : exists this l,
              match r with
              | None => Ok ((match prev with Some p => p + 1 | None => 0 end) mod 18446744073709551616,
                  if as_i64 ((match prev with Some p => p + 1 | None => 0 end) mod 18446744073709551616) <? 0
                  then LInt (as_i64 ((match prev with Some p => p + 1 | None => 0 end) mod 18446744073709551616)) Decimal_ TI64
                  else LUInt ((match prev with Some p => p + 1 | None => 0 end) mod 18446744073709551616) Decimal_ TU64)
              | Some (LUInt v _ _) => Ok (v, LUInt v Decimal_ TU64)
              | Some (LInt v _ _) => Ok (as_u64 v, LInt v Decimal_ TI64)
              | Some _ => Err
              end = Ok (this, l) /\ shown l = Some d /\
              this mod 18446744073709551616 = d mod 18446744073709551616).
    { destruct v as [|n m].
      - cbn in RV. subst r. do 2 eexists. split; [reflexivity|]. fold d.
        unfold as_i64. rewrite pow63, pow64. rewrite Z.mod_mod by lia.
        split; [|reflexivity]. clear IH R W F R'. clearbody d.
        destruct (Z.ltb_spec (d mod 18446744073709551616) 9223372036854775808) as [Q|Q].
        + destruct (Z.ltb_spec (d mod 18446744073709551616) 0) as [Q'|Q']; cbn [shown]; f_equal;
            Z.div_mod_to_equations; lia.
        + destruct (Z.ltb_spec (d mod 18446744073709551616 - 18446744073709551616) 0) as [Q'|Q'];
            cbn [shown]; f_equal; Z.div_mod_to_equations; lia.
      - destruct RV as [l [-> RD]]. specialize (W n m (or_introl eq_refl)).
        unfold read_discr in RD. rewrite pow63, pow64 in RD. destruct n; subst d; cbn [value] in *.
        + destruct (Z.leb_spec m 9223372036854775808) as [Q|Q]; [|discriminate].
          injection RD as <-. do 2 eexists. split; [reflexivity|]. split; [reflexivity|].
          unfold as_u64. rewrite pow64. apply Z.mod_mod. lia.
        + destruct (Z.ltb_spec m 18446744073709551616) as [Q|Q]; [|discriminate].
          injection RD as <-. do 2 eexists. split; [reflexivity|]. split; reflexivity. }
    destruct V as [this [l [-> [SL MT]]]]. cbn [bind fst snd].
    destruct (IH rs' (Some d) (as_u64 (this + 1)) R') as [ls [EL ML]].
    + intros n m I. apply (W n). right. exact I.
    + intros z I. apply F. right. exact I.
    + unfold as_u64. rewrite pow64. rewrite <- (Z.add_mod_idemp_l this 1) by lia. rewrite MT.
      apply Z.add_mod_idemp_l. lia.
    + rewrite EL. cbn [bind]. exists (l :: ls). split; [reflexivity|]. cbn. rewrite SL, ML.
      reflexivity.
Qed.

Lemma ci_discriminants repr vs rs index z :
  accepted repr vs -> Forall2 recorded vs rs ->
  (forall z, In z (rustc_discrs None vs) -> z < 2 ^ 63) ->
  nth_error (rustc_discrs None vs) index = Some z ->
  exists l, variant_discr rs index = Ok l /\ shown l = Some z.
Proof.
  intros [AC W] R SM N.
  destruct (ci_spec vs rs None 0 R) as [ls [E M]].
  - intros n m I. exact (proj1 (W n m I)).
  - intros x I. specialize (SM x I). specialize (AC x I).
    destruct (in_range_64 _ _ AC) as [A _]. split; assumption.
  - reflexivity.
  - unfold variant_discr. rewrite E. cbn [bind].
    assert (Q : nth_error (map shown ls) index = Some (Some z)).
    { rewrite M. rewrite (map_nth_error Some _ _ N). reflexivity. }
    rewrite nth_error_map in Q. destruct (nth_error ls index) as [l|]; [|discriminate].
    cbn in Q. exists l. split; [reflexivity|]. congruence.
Qed.

(** What rustc accepts, the reader accepts. *)
Lemma all_recorded repr vs : accepted repr vs -> exists rs, Forall2 recorded vs rs.
Proof.
  intros [AC W]. revert AC W. generalize (@None Z) as prev.
  induction vs as [|v vs IH]; intros prev AC W; [exists []; constructor|].
  assert (FD := AC _ (or_introl eq_refl)). apply in_range_64 in FD. rewrite pow63, pow64 in FD.
  destruct (IH (Some (match v with Written n m => value n m
                      | Nothing => match prev with Some p => p + 1 | None => 0 end end)))
    as [rs R].
  - intros z I. apply AC. right. exact I.
  - intros n m I. apply W. right. exact I.
  - destruct v as [|n m].
    + exists (None :: rs). constructor; [reflexivity | exact R].
    + destruct (W n m (or_introl eq_refl)) as [M _].
      assert (X : exists l, read_discr n m = Ok l).
      { unfold read_discr. rewrite pow63, pow64. destruct n; cbn [value] in FD.
        - destruct (Z.leb_spec m 9223372036854775808); [eauto|lia].
        - destruct (Z.ltb_spec m 18446744073709551616); [eauto|lia]. }
      destruct X as [l X]. exists (Some l :: rs). constructor; [exists l; auto | exact R].
Qed.
