(** Equality over all values, and comparing by fields. *)
From Verif Require Import Tra_Spec Tra_Proofs.

Section Lib.
Context (lib : nat -> declaration).

Lemma strange_dec (i : inst) v : strange i v \/ exists j, v = Ours j /\ ty i = ty j.
Proof. destruct v as [j | n]; [| left; exact I]. destruct (Nat.eq_dec (ty j) (ty i)) as [E | E]; [right | left; exact E]. exists j. now split. Qed.
Lemma foreign l n m : equal lib l (Foreign n) (Foreign m) = Gives (n =? m).
Proof. destruct l; reflexivity. Qed.

Lemma equivalence l : laws lib -> all_compared lib l ->
  (forall a, equal lib l a a = Gives true)
  /\ (forall a b, equal lib l a b = equal lib l b a)
  /\ (forall a b c, equal lib l a b = Gives true -> equal lib l b c = Gives true -> equal lib l a c = Gives true)
  /\ (forall a b, equal lib l a b <> Raises).
Proof.
  intros L A.
  assert (F : forall i v, strange i v -> equal lib l (Ours i) v <> Gives true /\ equal lib l (Ours i) v <> Raises).
  { intros i v N. destruct (other_type lib l i v A N) as [-> _]. destruct l; split; discriminate. }
  assert (S : forall a b, equal lib l a b = equal lib l b a).
  { intros [i | n] b.
    - destruct (strange_dec i b) as [N | (j & -> & T)].
      + destruct (other_type lib l i b A N) as [_ E]. now symmetry.
      + destruct (A (ty i)) as [U X]. rewrite (equality lib l i j T U X).
        destruct (A (ty j)) as [U' X']. rewrite (equality lib l j i (eq_sym T) U' X').
        rewrite <- T. now rewrite (eq_back _ (L (ty i))).
    - destruct b as [i | m].
      + now destruct (other_type lib l i (Foreign n) A I) as [_ E].
      + rewrite !foreign. now rewrite Nat.eqb_sym. }
  split; [| split; [exact S | split]].
  - intros [i | n].
    + destruct (A (ty i)) as [U X]. rewrite (equality lib l i i eq_refl U X). now rewrite (eq_self _ (L (ty i))).
    + rewrite foreign. now rewrite Nat.eqb_refl.
  - intros a b c Hab Hbc. destruct b as [j | m].
    + rewrite S in Hab. destruct (strange_dec j a) as [N | (i & -> & T)]; [now destruct (F j a N) |].
      destruct (strange_dec j c) as [N | (k & -> & T')]; [now destruct (F j c N) |].
      destruct (A (ty j)) as [U X]. rewrite (equality lib l j i T U X) in Hab. rewrite (equality lib l j k T' U X) in Hbc.
      injection Hab as Hab. injection Hbc as Hbc. rewrite T in U, X. rewrite (equality lib l i k (eq_trans (eq_sym T) T') U X).
      rewrite <- T. rewrite (eq_back _ (L (ty j))) in Hab. now rewrite (eq_chain _ (L (ty j)) _ _ _ Hab Hbc).
    + destruct a as [i | n].
      { now destruct (F i (Foreign m) I). }
      destruct c as [k | o].
      { rewrite S in Hbc. now destruct (F k (Foreign m) I). }
      rewrite foreign in *. injection Hab as Hab. injection Hbc as Hbc. apply Nat.eqb_eq in Hab as ->. now rewrite Hbc.
  - intros [i | n] b.
    + destruct (strange_dec i b) as [N | (j & -> & T)]; [now destruct (F i b N) |].
      destruct (A (ty i)) as [U X]. rewrite (equality lib l i j T U X). discriminate.
    + destruct b as [i | m]; [| rewrite foreign; discriminate]. rewrite S. now destruct (F i (Foreign n) I).
Qed.

(** * Field by field *)
Lemma fields_walk names (xs ys : list Z) pre (pv : list Z) (v : value) :
  length xs = length names -> length ys = length names -> length pv = length pre -> NoDup (pre ++ names) ->
  (forall n, attribute lib v n = lookup n (combine (pre ++ names) (pv ++ ys))) ->
  py_fields lib (combine names xs) v = Answer (fields_eqb xs ys)
  /\ rb_fields lib (combine names xs) v = Gives (fields_eqb xs ys).
Proof.
  revert xs ys pre pv. induction names as [| n names IH]; intros [| x xs] [| y ys] pre pv Lx Ly Lp ND A; try discriminate.
  - split; reflexivity.
  - cbn [combine py_fields rb_fields]. rewrite A.
    assert (K : lookup n (combine (pre ++ n :: names) (pv ++ y :: ys)) = Some y).
    { clear -Lp ND. revert pv Lp ND. induction pre as [| p pre IH]; intros [| q pv] Lp ND; try discriminate.
      - cbn. now rewrite String.eqb_refl.
      - cbn. cbn in ND. apply NoDup_cons_iff in ND as [NI ND]. destruct (String.eqb_spec n p) as [-> | _].
        + exfalso. apply NI. apply in_or_app. right. now left.
        + injection Lp as Lp. apply IH; assumption. }
    rewrite K. unfold fields_eqb in *. destruct (Z.eqb_spec x y) as [-> | D].
    + destruct (IH xs ys (pre ++ [n]) (pv ++ [y])) as [H1 H2].
      * now injection Lx.
      * now injection Ly.
      * rewrite !app_length, Lp. reflexivity.
      * rewrite <- app_assoc. exact ND.
      * intros m. rewrite <- !app_assoc. apply A.
      * rewrite H1, H2. destruct (list_eq_dec Z.eq_dec xs ys) as [-> | D]; destruct (list_eq_dec Z.eq_dec (y :: _) (y :: _)) as [E | E];
          try (split; reflexivity); exfalso; congruence.
    + destruct (list_eq_dec Z.eq_dec (x :: xs) (y :: ys)) as [E | E]; [congruence | split; reflexivity].
Qed.
Lemma walk names (i j : inst) : NoDup names ->
  length (fields (inside i)) = length names -> length (fields (inside j)) = length names ->
  (forall n, attribute lib (Ours j) n = lookup n (combine names (fields (inside j)))) ->
  py_fields lib (combine names (fields (inside i))) (Ours j) = Answer (same_fields i j)
  /\ rb_fields lib (combine names (fields (inside i))) (Ours j) = Gives (same_fields i j).
Proof. intros ND Li Lj A. exact (fields_walk names _ _ [] [] _ Li Lj eq_refl ND A). Qed.

Lemma nth_distinct (ds : list Z) (a b : nat) : NoDup ds -> a < length ds -> b < length ds ->
  (nth a ds 0 =? nth b ds 0)%Z = (a =? b).
Proof.
  intros ND A B. destruct (Z.eqb_spec (nth a ds 0%Z) (nth b ds 0%Z)) as [E | E].
  - symmetry. apply Nat.eqb_eq. exact (proj1 (NoDup_nth ds 0%Z) ND a b A B E).
  - symmetry. apply Nat.eqb_neq. congruence.
Qed.
Lemma same_empty (i j : inst) : fields (inside i) = [] -> fields (inside j) = [] -> same_fields i j = true.
Proof. intros A B. apply same_fields_eq. congruence. Qed.

Lemma distinct_names vs (a b : nat) : NoDup (map fst vs) -> a < length vs -> b < length vs ->
  String.eqb (fst (nth a vs ("", @nil string))) (fst (nth b vs ("", []))) = (a =? b).
Proof.
  intros ND A B. destruct (String.eqb_spec (fst (nth a vs ("", []))) (fst (nth b vs ("", [])))) as [E | E].
  - symmetry. apply Nat.eqb_eq. apply (proj1 (NoDup_nth (map fst vs) "") ND a b); rewrite ?map_length; try assumption.
    change "" with (fst ("", @nil string)). rewrite !map_nth. exact E.
  - symmetry. apply Nat.eqb_neq. congruence.
Qed.

Lemma by_field l (i j : inst) : ty i = ty j -> by_fields l (d_kind (lib (ty i))) -> x_eq (d_exports (lib (ty i))) = false ->
  match d_kind (lib (ty i)) with Data vs _ _ => NoDup (map fst vs) | _ => True end ->
  made lib i -> made lib j ->
  equal lib l (Ours i) (Ours j) = Gives (alike (inside i) (inside j)).
Proof.
  intros T U X N Mi Mj. pose proof (same_type_self _ _ T) as S.
  change (alike (inside i) (inside j)) with (same_variant i j && same_fields i j).
  unfold made, well_made in *. rewrite <- T in Mj.
  change (d_exports (lib (ty i))) with (exp lib i) in X. change (d_kind (lib (ty i))) with (kind_of lib i) in *.
  destruct (kind_of lib i) as [e | names o | ds | vs e o] eqn:K.
  - destruct l; contradiction.
  - destruct Mi as (Vi & Si & ND & Li), Mj as (Vj & Sj & _ & Lj).
    assert (V : same_variant i j = true) by (apply Nat.eqb_eq; congruence). rewrite V. cbn [andb].
    destruct (walk names i j ND Li Lj) as [P R].
    { intros n. unfold attribute. rewrite <- (kind_ty lib _ _ T), K. reflexivity. }
    destruct l; cbn [equal]; unfold py_equal, py_operator, kt_equal, sw_equal, rb_equal, py_eq, rb_eq, kt_equals, attributes; rewrite ?K, ?X, ?S, ?P, ?R; try reflexivity.
    + destruct names; [| unfold kt_data_eq; rewrite S, V; reflexivity]. rewrite same_empty; [reflexivity | |].
      * destruct (fields (inside i)); [reflexivity | discriminate].
      * destruct (fields (inside j)); [reflexivity | discriminate].
    + destruct names; [| unfold kt_data_eq; rewrite S, V; reflexivity]. rewrite same_empty; [reflexivity | |].
      * destruct (fields (inside i)); [reflexivity | discriminate].
      * destruct (fields (inside j)); [reflexivity | discriminate].
    + cbn in U. subst o. cbn [sw_synthesized negb]. unfold sw_data_eq. now rewrite V.
  - destruct Mi as (Vi & Si & Fi), Mj as (Vj & Sj & Fj). rewrite (same_empty i j Fi Fj), andb_true_r.
    destruct l; cbn [equal]; unfold py_equal, py_operator, kt_equal, sw_equal, rb_equal, py_eq, rb_eq, kt_equals, py_default_eq, py_is, py_identical, kt_identical, kt_once, sw_data_eq, rb_discriminant;
      rewrite <- ?(kind_ty lib _ _ T), ?K, ?X, ?S; cbn [andb sw_synthesized].
    + assert (V : same_variant j i = same_variant i j) by apply Nat.eqb_sym. rewrite V.
      rewrite (same_type_back j i), S. cbn [andb]. destruct (same_variant i j); reflexivity.
    + reflexivity.
    + reflexivity.
    + now rewrite (same_empty i j Fi Fj), andb_true_r.
    + cbn in U. now rewrite nth_distinct.
  - assert (Xe : l <> Swift -> e = false) by (destruct l; cbn in U; congruence).
    destruct Mi as (Vi & Si & ND & Li), Mj as (Vj & Sj & NDj & Lj).
    assert (Wi : variant_of lib i = nth (variant (inside i)) vs ("", [])) by (unfold variant_of; now rewrite K).
    assert (Wj : variant_of lib j = nth (variant (inside j)) vs ("", [])) by (unfold variant_of; now rewrite <- (kind_ty lib _ _ T), K).
    destruct l; try rewrite (Xe ltac:(discriminate)) in *; cbn [equal];
      unfold py_equal, py_operator, kt_equal, sw_equal, rb_equal, py_eq, rb_eq, kt_equals, py_enum_fields, rb_enum_fields;
      rewrite <- ?(kind_ty lib _ _ T), ?K, ?X, ?S; cbn [andb sw_synthesized].
    + reflexivity.
    + destruct (snd (variant_of lib i)) eqn:W.
      * unfold kt_identical, kt_once. rewrite K, S, W. cbn [andb]. destruct (same_variant i j) eqn:V; [| reflexivity].
        rewrite same_empty; [reflexivity | |].
        -- rewrite <- Wi, W in Li. destruct (fields (inside i)); [reflexivity | discriminate].
        -- apply Nat.eqb_eq in V. rewrite <- V, <- Wi, W in Lj. destruct (fields (inside j)); [reflexivity | discriminate].
      * unfold kt_data_eq. now rewrite S.
    + destruct (snd (variant_of lib i)) eqn:W.
      * unfold kt_identical, kt_once. rewrite K, S, W. cbn [andb]. destruct (same_variant i j) eqn:V; [| reflexivity].
        rewrite same_empty; [reflexivity | |].
        -- rewrite <- Wi, W in Li. destruct (fields (inside i)); [reflexivity | discriminate].
        -- apply Nat.eqb_eq in V. rewrite <- V, <- Wi, W in Lj. destruct (fields (inside j)); [reflexivity | discriminate].
      * unfold kt_data_eq. now rewrite S.
    + cbn in U. subst o. reflexivity.
    + rewrite Wi, Wj. rewrite (distinct_names vs _ _ N Vi Vj). fold (same_variant i j).
      destruct (same_variant i j) eqn:V; [| reflexivity]. apply Nat.eqb_eq in V.
      unfold attributes. rewrite K. cbn [andb].
      apply (walk (snd (variant_of lib i)) i j).
      * rewrite Wi. exact ND.
      * rewrite Wi. exact Li.
      * rewrite Wi, V. exact Lj.
      * intros n. unfold attribute. rewrite <- (kind_ty lib _ _ T), K, Wj, Wi, V. reflexivity.
Qed.
End Lib.
