From Verif Require Import Base Meta_Types Cbk_Model Cbk_Spec.
From Coq Require Import Permutation Sorted.
Local Open Scope Z_scope.

(** * Sorting *)

Lemma lex_refl : forall a, lex_leb a a = true.
Proof. induction a as [|x a IH]; cbn [lex_leb]; [reflexivity|]. rewrite Z.ltb_irrefl. exact IH. Qed.

Lemma lex_total : forall a b, lex_leb a b = true \/ lex_leb b a = true.
Proof.
  induction a as [|x a IH]; intros [|y b]; cbn [lex_leb]; auto.
  destruct (Z.ltb_spec x y), (Z.ltb_spec y x); auto.
Qed.

Lemma lex_trans : forall a b c, lex_leb a b = true -> lex_leb b c = true -> lex_leb a c = true.
Proof.
  induction a as [|x a IH]; intros [|y b] [|z c]; cbn [lex_leb]; intros P Q; auto; try discriminate.
  destruct (Z.ltb_spec x y), (Z.ltb_spec y x), (Z.ltb_spec y z), (Z.ltb_spec z y),
    (Z.ltb_spec x z), (Z.ltb_spec z x); try lia; try discriminate; auto.
  eapply IH; eassumption.
Qed.

Lemma lex_antisym : forall a b, lex_leb a b = true -> lex_leb b a = true -> a = b.
Proof.
  induction a as [|x a IH]; intros [|y b]; cbn [lex_leb]; intros P Q; auto; try discriminate.
  destruct (Z.ltb_spec x y), (Z.ltb_spec y x); try lia; try discriminate.
  f_equal; [lia | apply IH; assumption].
Qed.

Lemma lex_prefix : forall p a b, lex_leb (p ++ a) (p ++ b) = lex_leb a b.
Proof. induction p as [|x p IH]; intros a b; [reflexivity|]. cbn [app lex_leb]. rewrite Z.ltb_irrefl. apply IH. Qed.

Section Sorting.
Context {A : Type} (leb : A -> A -> bool).
Hypothesis total : forall a b, leb a b = true \/ leb b a = true.
Hypothesis trans : forall a b c, leb a b = true -> leb b c = true -> leb a c = true.

Lemma insert_perm : forall x l, Permutation (insert leb x l) (x :: l).
Proof.
  intros x l. induction l as [|y l IH]; [reflexivity|]. cbn [insert].
  destruct (leb x y); [reflexivity|].
  rewrite IH. apply perm_swap.
Qed.
Lemma isort_perm : forall l, Permutation (isort leb l) l.
Proof. induction l as [|x l IH]; [reflexivity|]. cbn [isort]. rewrite insert_perm, IH. reflexivity. Qed.

Definition srt (l : list A) : Prop := StronglySorted (fun a b => leb a b = true) l.

Lemma insert_sorted : forall x l, srt l -> srt (insert leb x l).
Proof.
  intros x l. induction l as [|y l IH]; intro P; cbn [insert].
  - constructor; [constructor | constructor].
  - inversion P as [|u v P1 P2]; subst. destruct (leb x y) eqn:C.
    + constructor; [exact P|]. constructor; [exact C|].
      eapply Forall_impl; [|exact P2]. intros z Z1. eapply trans; eassumption.
    + constructor; [apply IH; exact P1|].
      apply Permutation_Forall with (x :: l); [symmetry; apply insert_perm|].
      constructor; [|exact P2]. destruct (total x y) as [D | D]; [congruence | exact D].
Qed.
Lemma isort_sorted : forall l, srt (isort leb l).
Proof. induction l as [|x l IH]; [constructor|]. apply insert_sorted. exact IH. Qed.

Lemma sorted_unique : forall a b, Permutation a b -> srt a -> srt b ->
  (forall x y, In x a -> In y a -> leb x y = true -> leb y x = true -> x = y) -> a = b.
Proof.
  induction a as [|x a IH]; intros b P SA SB U.
  - apply Permutation_nil in P. subst. reflexivity.
  - destruct b as [|y b]; [apply Permutation_sym, Permutation_nil in P; discriminate|].
    inversion SA as [|u v SA1 SA2]; subst. inversion SB as [|u v SB1 SB2]; subst.
    assert (x = y) as <-.
    { assert (Ix : In x (y :: b)) by (apply (Permutation_in _ P); left; reflexivity).
      assert (Iy : In y (x :: a)) by (apply (Permutation_in _ (Permutation_sym P)); left; reflexivity).
      destruct Ix as [-> | Ix]; [reflexivity|]. destruct Iy as [-> | Iy]; [reflexivity|].
      apply U; [left; reflexivity | right; exact Iy | |].
      - exact (proj1 (Forall_forall _ _) SA2 y Iy).
      - exact (proj1 (Forall_forall _ _) SB2 x Ix). }
    f_equal. apply IH; [|assumption..|].
    + apply Permutation_cons_inv in P. exact P.
    + intros u v Iu Iv. apply U; right; assumption.
Qed.

Lemma filter_sorted : forall p l, srt l -> srt (filter p l).
Proof.
  intros p l. induction l as [|x l IH]; intro P; [exact P|]. inversion P as [|u v P1 P2]; subst.
  cbn [filter]. destruct (p x); [|apply IH; exact P1].
  constructor; [apply IH; exact P1|].
  apply Forall_forall. intros y I. apply filter_In in I. destruct I as [I _].
  exact (proj1 (Forall_forall _ _) P2 y I).
Qed.
Lemma filter_perm : forall (p : A -> bool) l l', Permutation l l' -> Permutation (filter p l) (filter p l').
Proof.
  intros p l l' P. induction P as [|x l l' P IH|x y l|l1 l2 l3 P1 IH1 P2 IH2]; [constructor| | |].
  - cbn [filter]. destruct (p x); [constructor|]; exact IH.
  - cbn [filter]. destruct (p x), (p y); try constructor; reflexivity.
  - etransitivity; eassumption.
Qed.
End Sorting.

Lemma item_total : forall a b, item_leb a b = true \/ item_leb b a = true.
Proof. intros a b. apply lex_total. Qed.
Lemma item_trans : forall a b c, item_leb a b = true -> item_leb b c = true -> item_leb a c = true.
Proof. intros a b c. apply lex_trans. Qed.

(** * Vtables *)

Lemma str_eqb : forall a b : str, bytes_eqb a b = true <-> a = b.
Proof. intros a b. destruct (bytes_eqb_spec a b); split; congruence. Qed.
Lemma str_eqb_refl : forall a : str, bytes_eqb a a = true.
Proof. intro a. apply str_eqb. reflexivity. Qed.

Lemma distinct_spec : forall l, NoDup l -> distinct l = true.
Proof.
  induction l as [|x l IH]; intro N; [reflexivity|]. inversion N as [|u v N1 N2]; subst.
  cbn [distinct]. rewrite IH by exact N2.
  destruct (existsb (bytes_eqb x) l) eqn:X; [|reflexivity].
  apply existsb_exists in X. destruct X as (y & I & Q). apply str_eqb in Q. subst. contradiction.
Qed.

(** Items that are not methods of the trait do not matter. *)
Lemma ci_add_filter : forall cb trait items ms,
  ci_add cb trait ms items = ci_add cb trait ms (filter (method_of trait) items).
Proof.
  intros cb trait. induction items as [|m items IH]; intro ms; [reflexivity|].
  destruct m; cbn [ci_add filter method_of]; auto.
  - destruct (bytes_eqb self trait) eqn:C; [|apply IH].
    cbn [ci_add]. rewrite C. destruct cb; auto.
  - destruct (bytes_eqb trait_name trait) eqn:C; [|apply IH].
    cbn [ci_add]. rewrite C. destruct (cb && _); auto.
Qed.

Definition pos_from (i : nat) (trait : str) (sigs : list sig) : list metadata :=
  map (fun p => MTraitMethod trait (Z.of_nat (fst p)) (s_meta (snd p))) (combine (seq i (length sigs)) sigs).

Lemma pos_cons : forall i trait s sigs,
  pos_from i trait (s :: sigs) = MTraitMethod trait (Z.of_nat i) (s_meta s) :: pos_from (S i) trait sigs.
Proof. reflexivity. Qed.

Lemma items_positioned : forall trait sigs, Z.of_nat (length sigs) < 2 ^ 32 ->
  trait_items trait sigs = positioned sigs trait.
Proof.
  intros trait sigs L. unfold trait_items. change (positioned sigs trait) with (pos_from 0 trait sigs).
  change 0 with (Z.of_nat 0) at 1.
  assert (G : forall n sigs, Z.of_nat (n + length sigs) < 2 ^ 32 ->
    items_from (Z.of_nat n) trait sigs = pos_from n trait sigs).
  { clear. intros n sigs. revert n. induction sigs as [|s sigs IH]; intros n L; [reflexivity|].
    rewrite pos_cons. cbn [items_from length] in *. rewrite Z.mod_small by lia. f_equal.
    rewrite <- IH by lia. f_equal. lia. }
  apply G. exact L.
Qed.

Lemma pos_in : forall trait sigs i m, In m (pos_from i trait sigs) ->
  exists k s, m = MTraitMethod trait (Z.of_nat k) (s_meta s) /\ (i <= k)%nat /\ nth_error sigs (k - i) = Some s.
Proof.
  intros trait. induction sigs as [|s sigs IH]; intros i m I; [contradiction|].
  rewrite pos_cons in I. destruct I as [<- | I].
  - exists i, s. rewrite Nat.sub_diag. repeat split; auto.
  - destruct (IH _ _ I) as (k & s' & -> & L & N). exists k, s'. repeat split; [lia|].
    replace (k - i)%nat with (S (k - S i)) by lia. exact N.
Qed.

Lemma key_index : forall t i f i' f', f_mp f = f_mp f' ->
  item_leb (MTraitMethod t i f) (MTraitMethod t i' f') = (i <=? i').
Proof.
  intros t i f i' f' M. unfold item_leb. cbn [item_key]. rewrite M.
  rewrite !app_comm_cons, !app_assoc.
  rewrite lex_prefix. cbn [lex_leb].
  destruct (Z.ltb_spec i i'), (Z.ltb_spec i' i), (Z.leb_spec i i'); try lia; reflexivity.
Qed.

Lemma pos_sorted : forall trait mp sigs i, Forall (fun s => f_mp (s_meta s) = mp) sigs ->
  srt item_leb (pos_from i trait sigs).
Proof.
  intros trait mp. induction sigs as [|s sigs IH]; intros i F; [constructor|].
  inversion F as [|u v F1 F2]; subst. rewrite pos_cons. constructor; [apply IH; exact F2|].
  apply Forall_forall. intros m I. apply pos_in in I. destruct I as (k & s' & -> & L & N).
  apply nth_error_In in N. rewrite key_index.
  - apply Z.leb_le. lia.
  - symmetry. exact (proj1 (Forall_forall _ _) F2 s' N).
Qed.

Lemma ci_add_pos : forall cb trait sigs ms,
  ci_add cb trait ms (pos_from (length ms) trait sigs) = Ok (ms ++ map s_meta sigs).
Proof.
  intros cb trait. induction sigs as [|s sigs IH]; intro ms.
  - cbn. rewrite app_nil_r. reflexivity.
  - rewrite pos_cons. cbn [ci_add]. rewrite str_eqb_refl, Z.eqb_refl.
    rewrite andb_false_r. replace (S (length ms)) with (length (ms ++ [s_meta s])) by (rewrite app_length; cbn; lia).
    rewrite IH, <- app_assoc. reflexivity.
Qed.

Lemma ci_in_order : forall cb trait sigs items, good_trait sigs -> describes items trait sigs ->
  ci_methods cb trait items = Ok (map s_meta sigs).
Proof.
  intros cb trait sigs items (N1 & N2 & (mp & M) & L) D.
  unfold ci_methods. rewrite ci_add_filter.
  assert (Q : filter (method_of trait) (set_order items) = pos_from 0 trait sigs).
  { apply (sorted_unique item_leb).
    - etransitivity; [apply filter_perm; apply isort_perm|]. exact D.
    - apply filter_sorted, isort_sorted; [apply item_total | apply item_trans].
    - eapply pos_sorted. exact M.
    - intros x y Ix Iy P P'.
      assert (G : forall z, In z (filter (method_of trait) (set_order items)) -> In z (pos_from 0 trait sigs)).
      { intros z Iz. apply (Permutation_in z D).
        apply (Permutation_in z (filter_perm (method_of trait) _ _ (isort_perm item_leb items))). exact Iz. }
      apply G in Ix, Iy. apply pos_in in Ix, Iy.
      destruct Ix as (k & s & -> & _ & X). destruct Iy as (k' & s' & -> & _ & X').
      pose proof (nth_error_In _ _ X) as I1. pose proof (nth_error_In _ _ X') as I2.
      rewrite key_index in P, P' by
        (rewrite (proj1 (Forall_forall _ _) M s I1), (proj1 (Forall_forall _ _) M s' I2); reflexivity).
      apply Z.leb_le in P, P'. assert (k = k') as -> by lia.
      rewrite X' in X. injection X as ->. reflexivity. }
  rewrite Q. exact (ci_add_pos cb trait sigs []).
Qed.

(** The pipeline. *)
Lemma pl_methods_filter : forall trait items,
  pl_methods_of trait items = pl_methods_of trait (filter (method_of trait) items) /\
  pl_trait_methods_of trait items = pl_trait_methods_of trait (filter (method_of trait) items).
Proof.
  intros trait items. induction items as [|m items [IH IH']]; [split; reflexivity|].
  destruct m; cbn [pl_methods_of pl_trait_methods_of filter method_of]; auto.
  - destruct (bytes_eqb self trait) eqn:C; cbn [pl_methods_of pl_trait_methods_of]; rewrite ?C, <- ?IH, <- ?IH'; auto.
  - destruct (bytes_eqb trait_name trait) eqn:C; cbn [pl_methods_of pl_trait_methods_of]; rewrite ?C, <- ?IH, <- ?IH'; auto.
Qed.

Lemma pl_methods_perm : forall trait a b, Permutation a b ->
  Permutation (pl_methods_of trait a) (pl_methods_of trait b) /\
  Permutation (pl_trait_methods_of trait a) (pl_trait_methods_of trait b).
Proof.
  intros trait a b P. induction P as [|x l l' P [IH IH']|x y l|l1 l2 l3 P1 [A1 B1] P2 [A2 B2]].
  - split; constructor.
  - destruct x; cbn [pl_methods_of pl_trait_methods_of]; auto; destruct (bytes_eqb _ trait); auto.
  - destruct x, y; cbn [pl_methods_of pl_trait_methods_of]; auto;
      repeat match goal with |- context [bytes_eqb ?t trait] => destruct (bytes_eqb t trait) end;
      split; try reflexivity; apply perm_swap.
  - split; etransitivity; eassumption.
Qed.

Lemma pl_pos : forall trait sigs i,
  pl_methods_of trait (pos_from i trait sigs) = [] /\
  pl_trait_methods_of trait (pos_from i trait sigs) =
    map (fun p => (Z.of_nat (fst p), s_meta (snd p))) (combine (seq i (length sigs)) sigs).
Proof.
  intros trait. induction sigs as [|s sigs IH]; intro i; [split; reflexivity|].
  rewrite pos_cons. cbn [pl_methods_of pl_trait_methods_of]. rewrite str_eqb_refl.
  destruct (IH (S i)) as [A B]. rewrite A, B. split; reflexivity.
Qed.

Lemma numbered_snd : forall (sigs : list sig) i,
  map snd (map (fun p => (Z.of_nat (fst p), s_meta (snd p))) (combine (seq i (length sigs)) sigs)) = map s_meta sigs.
Proof. induction sigs as [|s sigs IH]; intro i; [reflexivity|]. cbn. f_equal. apply IH. Qed.

Lemma numbered_in : forall (sigs : list sig) i z f,
  In (z, f) (map (fun p => (Z.of_nat (fst p), s_meta (snd p))) (combine (seq i (length sigs)) sigs)) ->
  exists k s, z = Z.of_nat k /\ f = s_meta s /\ (i <= k)%nat /\ nth_error sigs (k - i) = Some s.
Proof.
  induction sigs as [|s sigs IH]; intros i z f I; [contradiction|].
  cbn [length seq combine map fst snd] in I. destruct I as [Q | I].
  - injection Q as <- <-. exists i, s. rewrite Nat.sub_diag. repeat split; auto.
  - destruct (IH _ _ _ I) as (k & s' & -> & -> & L & N). exists k, s'. repeat split; [lia|].
    replace (k - i)%nat with (S (k - S i)) by lia. exact N.
Qed.

Lemma numbered_sorted : forall (sigs : list sig) i,
  srt (fun a b : Z * fn_meta => fst a <=? fst b)
    (map (fun p => (Z.of_nat (fst p), s_meta (snd p))) (combine (seq i (length sigs)) sigs)).
Proof.
  induction sigs as [|s sigs IH]; intro i; [constructor|].
  cbn [length seq combine map fst snd]. constructor; [apply IH|].
  apply Forall_forall. intros [z f] I. apply numbered_in in I. destruct I as (k & s' & -> & -> & L & N).
  apply Z.leb_le. cbn [fst]. lia.
Qed.

Lemma pl_in_order : forall trait sigs items, good_trait sigs -> describes items trait sigs ->
  pl_methods trait items = Ok (map s_meta sigs).
Proof.
  intros trait sigs items (N1 & N2 & (mp & M) & L) D. unfold pl_methods.
  destruct (pl_methods_filter trait items) as [-> ->].
  destruct (pl_methods_perm trait _ _ D) as [P1 P2].
  change (positioned sigs trait) with (pos_from 0 trait sigs) in *.
  destruct (pl_pos trait sigs 0) as [Q1 Q2]. rewrite Q1 in P1. rewrite Q2 in P2.
  apply Permutation_sym, Permutation_nil in P1. rewrite P1.
  set (tms := pl_trait_methods_of trait (filter (method_of trait) items)) in *.
  set (num := map _ (combine _ _)) in P2.
  assert (D1 : distinct (map (fun x : Z * fn_meta => f_name (snd x)) tms) = true).
  { apply distinct_spec. apply (Permutation_NoDup (l := map (fun x : Z * fn_meta => f_name (snd x)) num)).
    - apply Permutation_map. symmetry. exact P2.
    - rewrite <- (map_map snd f_name). unfold num. rewrite numbered_snd, map_map. exact N2. }
  rewrite D1. cbn [map distinct andb].
  assert (Q : isort (fun a b : Z * fn_meta => fst a <=? fst b)
                (isort (fun a b => name_leb (f_name (snd a)) (f_name (snd b))) tms) = num).
  { apply (sorted_unique (fun a b : Z * fn_meta => fst a <=? fst b)).
    - etransitivity; [apply isort_perm|]. etransitivity; [apply isort_perm|]. exact P2.
    - apply isort_sorted.
      + intros a b. destruct (Z.leb_spec (fst a) (fst b)), (Z.leb_spec (fst b) (fst a)); auto; lia.
      + intros a b c. rewrite !Z.leb_le. lia.
    - apply numbered_sorted.
    - intros [z f] [z' f'] Ix Iy.
      assert (G : forall x, In x (isort (fun a b : Z * fn_meta => fst a <=? fst b)
                (isort (fun a b => name_leb (f_name (snd a)) (f_name (snd b))) tms)) -> In x num).
      { intros x I. apply (Permutation_in x P2).
        apply (Permutation_in x (isort_perm (fun a b => name_leb (f_name (snd a)) (f_name (snd b))) tms)).
        apply (Permutation_in x (isort_perm (fun a b : Z * fn_meta => fst a <=? fst b) _)). exact I. }
      apply G in Ix, Iy. apply numbered_in in Ix, Iy.
      destruct Ix as (k & s & -> & -> & _ & X). destruct Iy as (k' & s' & -> & -> & _ & X').
      cbn [fst]. rewrite !Z.leb_le. intros A B. assert (k = k') as -> by lia.
      rewrite X' in X. injection X as ->. reflexivity. }
  cbn zeta. rewrite Q. unfold num. rewrite numbered_snd. reflexivity.
Qed.

Lemma position_nth : forall l k x, NoDup l -> nth_error l k = Some x -> position x l = Some k.
Proof.
  induction l as [|y l IH]; intros [|k] x N X; try discriminate.
  - cbn in X. injection X as ->. cbn [position]. rewrite str_eqb_refl. reflexivity.
  - cbn [nth_error] in X. inversion N as [|u v N1 N2]; subst. cbn [position].
    destruct (bytes_eqb_spec x y) as [-> | _].
    + apply nth_error_In in X. contradiction.
    + rewrite (IH k x N2 X). reflexivity.
Qed.

Lemma slots_agree : forall sigs s, good_trait sigs -> In s sigs ->
  exists k, position (s_ident s) (rust_vtable sigs) = Some k /\
    nth_error (foreign_vtable (map s_meta sigs)) k = Some (EMethod (f_name (s_meta s))).
Proof.
  intros sigs s (N & _) I. apply In_nth_error in I. destruct I as (k & K).
  exists (S (S k)). split.
  - apply position_nth; [exact N|]. cbn [rust_vtable nth_error]. rewrite nth_error_map, K. reflexivity.
  - cbn [foreign_vtable nth_error]. rewrite map_map, nth_error_map, K. reflexivity.
Qed.

Lemma special_slots : forall sigs ms,
  position (S_ "uniffi_free") (rust_vtable sigs) = Some 0%nat /\
  nth_error (foreign_vtable ms) 0 = Some EFree /\
  position (S_ "uniffi_clone") (rust_vtable sigs) = Some 1%nat /\
  nth_error (foreign_vtable ms) 1 = Some EClone.
Proof. intros sigs ms. repeat split; vm_compute; reflexivity. Qed.

(** Traits defined in UDL: plain methods, ordered by name in both front ends. *)
Lemma key_name : forall t f f', f_mp f = f_mp f' ->
  item_leb (MMethod t f) (MMethod t f') = name_leb (f_name f) (f_name f').
Proof.
  intros t f f' M. unfold item_leb, name_leb. cbn [item_key]. rewrite M.
  rewrite !app_comm_cons, !app_assoc.
  apply lex_prefix.
Qed.

Lemma key_str_inj : forall a b, key_str a = key_str b -> a = b.
Proof.
  intros a b Q. unfold key_str in Q. apply app_inj_tail in Q. destruct Q as [Q _].
  revert b Q. induction a as [|x a IH]; intros [|y b] Q; try discriminate; [reflexivity|].
  cbn [map] in Q. injection Q as Q1 Q2. f_equal; [|apply IH; exact Q2].
  apply (f_equal n2b) in Q1 || idtac.
  assert (b2n x = b2n y) as Q3 by lia.
  apply (f_equal n2b) in Q3. rewrite !n2b_b2n in Q3. exact Q3.
Qed.

Lemma ci_add_methods : forall trait ms acc,
  ci_add false trait acc (map (MMethod trait) ms) = Ok (acc ++ ms).
Proof.
  intros trait. induction ms as [|f ms IH]; intro acc; cbn [map ci_add].
  - rewrite app_nil_r. reflexivity.
  - rewrite str_eqb_refl, IH, <- app_assoc. reflexivity.
Qed.

Lemma udl_same_order : forall trait mp ms items items',
  Forall (fun f => f_mp f = mp) ms -> NoDup (map f_name ms) ->
  Permutation (filter (method_of trait) items) (map (MMethod trait) ms) ->
  Permutation (filter (method_of trait) items') (map (MMethod trait) ms) ->
  exists order, Permutation order ms /\
    ci_methods false trait items = Ok order /\ ci_methods false trait items' = Ok order /\
    pl_methods trait items = Ok order /\ pl_methods trait items' = Ok order.
Proof.
  intros trait mp ms items items' M N D D'.
  set (nleb := fun a b => name_leb (f_name a) (f_name b)).
  exists (isort nleb ms). split; [apply isort_perm|].
  assert (NT : forall a b : fn_meta, nleb a b = true \/ nleb b a = true) by (intros; apply lex_total).
  assert (NR : forall a b c : fn_meta, nleb a b = true -> nleb b c = true -> nleb a c = true)
    by (intros a b c; apply lex_trans).
  assert (NA : forall x y, In x ms -> In y ms -> nleb x y = true -> nleb y x = true -> x = y).
  { intros x y Ix Iy P Q. pose proof (lex_antisym _ _ P Q) as K. apply key_str_inj in K.
    clear - N Ix Iy K. induction ms as [|z ms IH]; [contradiction|].
    cbn [map] in N. inversion N as [|u v N1 N2]; subst.
    destruct Ix as [-> | Ix], Iy as [-> | Iy]; auto.
    - exfalso. apply N1. rewrite K. apply in_map. exact Iy.
    - exfalso. apply N1. rewrite <- K. apply in_map. exact Ix. }
  assert (SM : srt item_leb (map (MMethod trait) (isort nleb ms))).
  { assert (MI : Forall (fun f => f_mp f = mp) (isort nleb ms)).
    { apply Permutation_Forall with ms; [symmetry; apply isort_perm | exact M]. }
    pose proof (isort_sorted nleb NT NR ms) as SI. revert MI SI.
    generalize (isort nleb ms). clear. induction l as [|f l IH]; intros MI SI; [constructor|].
    inversion MI as [|u v M1 M2]; subst. inversion SI as [|u v S1 S2]; subst.
    cbn [map]. constructor; [apply IH; assumption|].
    apply Forall_forall. intros x I. apply in_map_iff in I. destruct I as (g & <- & I).
    rewrite key_name; [exact (proj1 (Forall_forall _ _) S2 g I)|].
    symmetry. exact (proj1 (Forall_forall _ _) M2 g I). }
  assert (C : forall its, Permutation (filter (method_of trait) its) (map (MMethod trait) ms) ->
    ci_methods false trait its = Ok (isort nleb ms) /\ pl_methods trait its = Ok (isort nleb ms)).
  { intros its P. split.
    - unfold ci_methods. rewrite ci_add_filter.
      assert (Q : filter (method_of trait) (set_order its) = map (MMethod trait) (isort nleb ms)).
      { assert (PP : Permutation (filter (method_of trait) (set_order its)) (map (MMethod trait) ms)).
        { etransitivity; [apply filter_perm; apply isort_perm | exact P]. }
        apply (sorted_unique item_leb).
        - rewrite PP. apply Permutation_map. symmetry. apply isort_perm.
        - apply filter_sorted, isort_sorted; [apply item_total | apply item_trans].
        - exact SM.
        - intros x y Ix Iy X Y. apply (Permutation_in _ PP) in Ix, Iy.
          apply in_map_iff in Ix, Iy. destruct Ix as (f & <- & If), Iy as (g & <- & Ig).
          rewrite key_name in X, Y by
            (rewrite (proj1 (Forall_forall _ _) M f If), (proj1 (Forall_forall _ _) M g Ig); reflexivity).
          f_equal. apply NA; assumption. }
      rewrite Q. exact (ci_add_methods trait _ []).
    - unfold pl_methods. destruct (pl_methods_filter trait its) as [-> ->].
      destruct (pl_methods_perm trait _ _ P) as [P1 P2].
      assert (Q1 : pl_methods_of trait (map (MMethod trait) ms) = ms).
      { clear. induction ms as [|f ms IH]; [reflexivity|]. cbn. rewrite str_eqb_refl, IH. reflexivity. }
      assert (Q2 : pl_trait_methods_of trait (map (MMethod trait) ms) = []).
      { clear. induction ms as [|f ms IH]; [reflexivity|]. cbn. exact IH. }
      rewrite Q1 in P1. rewrite Q2 in P2. apply Permutation_sym, Permutation_nil in P2. rewrite P2.
      set (l := pl_methods_of trait (filter (method_of trait) its)) in *.
      assert (DD : distinct (map f_name l) = true).
      { apply distinct_spec. apply (Permutation_NoDup (l := map f_name ms)); [|exact N].
        apply Permutation_map. symmetry. exact P1. }
      cbn zeta. rewrite DD. cbn [map distinct andb].
      assert (QQ : isort nleb l = isort nleb ms).
      { apply (sorted_unique nleb).
        - rewrite !isort_perm. exact P1.
        - apply isort_sorted; assumption.
        - apply isort_sorted; assumption.
        - intros x y Ix Iy. apply NA; apply (Permutation_in _ P1); [clear Iy | clear Ix];
            eapply (Permutation_in _ (isort_perm nleb l)); assumption. }
      destruct l as [|f l].
      + cbn in QQ. rewrite <- QQ. reflexivity.
      + fold nleb. rewrite QQ. reflexivity. }
  destruct (C items D) as [A1 A2]. destruct (C items' D') as [B1 B2]. auto.
Qed.

(** * Calls *)
Section Calls.
Context {T V E F W X O : Type}.
Variables (same : T -> V -> W -> Prop) (same_error : E -> X -> Prop).
Variable r_lower : T -> V -> F.
Variable r_lift : T -> F -> V + bytes.
Variable r_lift_error : bytes -> E + bytes.
Variable from_unexpected : option (bytes -> E).
Variable f_lift : T -> F -> W + exn X.
Variable f_lower : T -> W -> F + exn X.
Variable f_lower_error : X -> bytes + exn X.
Variable call : O -> str -> list W -> outcome W X.
Variable ffi_default : T -> F.
Variable unit_value : V.
Variable unit_ffi : F.
Hypothesis fit : converters_fit same same_error r_lower r_lift r_lift_error f_lift f_lower f_lower_error.

Notation proxy := (proxy_call r_lower r_lift r_lift_error from_unexpected f_lift f_lower f_lower_error call
  ffi_default unit_value unit_ffi).

Lemma args_lifted : forall ts vs ws, all_same same ts vs ws ->
  lift_all f_lift ts (map (fun tv => r_lower (fst tv) (snd tv)) (combine ts vs)) = inl ws.
Proof.
  intros ts vs ws A. induction A as [|t v w ts vs ws P A IH]; [reflexivity|].
  cbn [combine map lift_all fst snd]. rewrite (fit_arg _ _ _ _ _ _ _ _ fit t v w P), IH. reflexivity.
Qed.

Lemma call_works : forall l sigs s types map_ h o vs ws r,
  good_trait sigs -> In s sigs -> map_ h = Some o ->
  all_same same (m_args (types (f_name (s_meta s)))) vs ws ->
  expected same same_error from_unexpected unit_value (types (f_name (s_meta s)))
    (call o (f_name (s_meta s)) ws) r ->
  proxy l sigs (foreign_vtable (map s_meta sigs)) types map_ (s_ident s) h (types (f_name (s_meta s))) vs =
    Some ([Invoke o (f_name (s_meta s)) ws], r).
Proof.
  intros l sigs s types map_ h o vs ws r G I M A X0.
  destruct (slots_agree sigs s G I) as (k & K1 & K2).
  unfold proxy_call. rewrite K1, K2. set (name := f_name (s_meta s)) in *. set (m := types name) in *.
  unfold foreign_method. rewrite M. unfold call_and_write, make_call. rewrite (args_lifted _ _ _ A).
  remember (call o name ws) as out eqn:CO. clear CO.
  destruct X0 as [t v w R P | w R | x e R P | x R | msg c R P | msg R].
  - destruct (fit_ret _ _ _ _ _ _ _ _ fit t v w P) as (f & F1 & F2).
    rewrite R, F1. unfold lift_foreign_return. cbn [a_code a_ret]. rewrite R, F2. reflexivity.
  - rewrite R. unfold lift_foreign_return. cbn [a_code a_ret]. rewrite R. reflexivity.
  - destruct (fit_err _ _ _ _ _ _ _ _ fit e x P) as (b & F1 & F2).
    unfold on_exception. rewrite R, F1. unfold lift_foreign_return. cbn [a_code a_buf].
    rewrite R, F2. reflexivity.
  - unfold on_exception. rewrite R. unfold lift_foreign_return, unexpected. cbn [a_code]. rewrite R. reflexivity.
  - unfold on_exception, lift_foreign_return, unexpected. cbn [a_code a_buf message]. rewrite R, P. reflexivity.
  - unfold on_exception, lift_foreign_return, unexpected. cbn [a_code a_buf message].
    destruct R as [R | R]; rewrite R; [|destruct (m_throws m)]; reflexivity.
Qed.

(** An argument that cannot be lifted: the method is not called. *)
Lemma call_bad_arg : forall l sigs s types map_ h o vs msg,
  good_trait sigs -> In s sigs -> map_ h = Some o ->
  let m := types (f_name (s_meta s)) in
  lift_all f_lift (m_args m) (map (fun tv => r_lower (fst tv) (snd tv)) (combine (m_args m) vs)) = inr (Other msg) ->
  proxy l sigs (foreign_vtable (map s_meta sigs)) types map_ (s_ident s) h m vs =
    Some ([], if m_throws m then match from_unexpected with Some c => RError (c msg) | None => RPanics end else RPanics).
Proof.
  intros l sigs s types map_ h o vs msg G I M m L.
  destruct (slots_agree sigs s G I) as (k & K1 & K2).
  unfold proxy_call. rewrite K1, K2. unfold foreign_method. rewrite M. unfold call_and_write, make_call.
  fold m. rewrite L. reflexivity.
Qed.

(** A result that cannot be lowered: the method is called once, and Rust sees an unexpected error. *)
Lemma call_bad_result : forall l sigs s types map_ h o vs ws t w msg,
  good_trait sigs -> In s sigs -> map_ h = Some o ->
  let m := types (f_name (s_meta s)) in
  all_same same (m_args m) vs ws -> m_ret m = Some t ->
  call o (f_name (s_meta s)) ws = Returns w -> f_lower t w = inr (Other msg) ->
  proxy l sigs (foreign_vtable (map s_meta sigs)) types map_ (s_ident s) h m vs =
    Some ([Invoke o (f_name (s_meta s)) ws],
          if m_throws m then match from_unexpected with Some c => RError (c msg) | None => RPanics end else RPanics).
Proof.
  intros l sigs s types map_ h o vs ws t w msg G I M m A R C L.
  destruct (slots_agree sigs s G I) as (k & K1 & K2).
  unfold proxy_call. rewrite K1, K2. unfold foreign_method. rewrite M. unfold call_and_write, make_call.
  fold m. rewrite (args_lifted _ _ _ A), C, R, L. reflexivity.
Qed.

(** A result that Rust cannot lift. *)
Lemma call_unliftable : forall l sigs s types map_ h o vs ws t w f msg,
  good_trait sigs -> In s sigs -> map_ h = Some o ->
  let m := types (f_name (s_meta s)) in
  all_same same (m_args m) vs ws -> m_ret m = Some t ->
  call o (f_name (s_meta s)) ws = Returns w -> f_lower t w = inl f -> r_lift t f = inr msg ->
  proxy l sigs (foreign_vtable (map s_meta sigs)) types map_ (s_ident s) h m vs =
    Some ([Invoke o (f_name (s_meta s)) ws],
          if m_throws m then match from_unexpected with Some c => RError (c msg) | None => RPanics end else RPanics).
Proof.
  intros l sigs s types map_ h o vs ws t w f msg G I M m A R C L RL.
  destruct (slots_agree sigs s G I) as (k & K1 & K2).
  unfold proxy_call. rewrite K1, K2. unfold foreign_method. rewrite M. unfold call_and_write, make_call.
  fold m. rewrite (args_lifted _ _ _ A), C, R, L. unfold lift_foreign_return. cbn [a_code a_ret].
  rewrite R, RL. reflexivity.
Qed.

(** An error that Rust cannot lift. *)
Lemma call_unliftable_error : forall l sigs s types map_ h o vs ws x b msg,
  good_trait sigs -> In s sigs -> map_ h = Some o ->
  let m := types (f_name (s_meta s)) in
  all_same same (m_args m) vs ws -> m_throws m = true ->
  call o (f_name (s_meta s)) ws = Raises (Declared x) -> f_lower_error x = inl b -> r_lift_error b = inr msg ->
  proxy l sigs (foreign_vtable (map s_meta sigs)) types map_ (s_ident s) h m vs =
    Some ([Invoke o (f_name (s_meta s)) ws],
          match from_unexpected with
          | Some c => RError (c (S_ "Error lifting from rust buffer: " ++ msg))
          | None => RPanics
          end).
Proof.
  intros l sigs s types map_ h o vs ws x b msg G I M m A R C L RL.
  destruct (slots_agree sigs s G I) as (k & K1 & K2).
  unfold proxy_call. rewrite K1, K2. unfold foreign_method. rewrite M. unfold call_and_write, make_call.
  fold m. rewrite (args_lifted _ _ _ A), C. unfold on_exception. rewrite R, L.
  unfold lift_foreign_return, unexpected. cbn [a_code a_buf]. rewrite R, RL. reflexivity.
Qed.

(** Kotlin and Swift catch everything. *)
Lemma call_fatal : forall l sigs s types map_ h o vs ws msg,
  l <> Python -> good_trait sigs -> In s sigs -> map_ h = Some o ->
  let m := types (f_name (s_meta s)) in
  all_same same (m_args m) vs ws ->
  call o (f_name (s_meta s)) ws = Raises (Fatal msg) ->
  proxy l sigs (foreign_vtable (map s_meta sigs)) types map_ (s_ident s) h m vs =
    Some ([Invoke o (f_name (s_meta s)) ws],
          if m_throws m then match from_unexpected with Some c => RError (c msg) | None => RPanics end else RPanics).
Proof.
  intros l sigs s types map_ h o vs ws msg NP G I M m A C.
  destruct (slots_agree sigs s G I) as (k & K1 & K2).
  unfold proxy_call. rewrite K1, K2. unfold foreign_method. rewrite M. unfold call_and_write, make_call.
  fold m. rewrite (args_lifted _ _ _ A), C. destruct l; [congruence | reflexivity | reflexivity].
Qed.
End Calls.

(** * Handles *)

Definition has (h : Z) (m : list (Z * Z)) : nat := match find h m with Some _ => 1 | None => 0 end.

Record inv (s : state) : Prop := Inv {
  iv_keys : forall h o, find h (hmap s) = Some o -> In (Passed h o) (log s);
  iv_count : forall h, count (passed h) (log s) = (count (freed h) (log s) + has h (hmap s))%nat;
  iv_once : forall h, (count (passed h) (log s) <= 1)%nat;
  iv_fresh : forall h, next s <= h -> count (passed h) (log s) = 0%nat;
  iv_del : NoDup (map fst (hmap s));
  iv_prox : NoDup (proxies s);
  iv_live : forall h, In h (proxies s) -> exists o, find h (hmap s) = Some o;
  iv_stale : forall h, ~ In (Stale h) (log s);
  iv_called : forall h o, In (Called h o) (log s) -> In (Passed h o) (log s)
}.

Lemma find_in : forall h m, find h m <> None <-> In h (map fst m).
Proof.
  intros h m. induction m as [|[k o] m IH]; cbn [find map fst In]; [split; [congruence | contradiction]|].
  destruct (Z.eqb_spec k h) as [-> | N]; [split; [auto | congruence]|].
  rewrite IH. split; [auto | intros [-> | I]; [congruence | exact I]].
Qed.

Lemma find_del : forall h k m, NoDup (map fst m) ->
  find k (del h m) = if k =? h then None else find k m.
Proof.
  intros h k m. induction m as [|[a o] m IH]; intro N; cbn [del find].
  - destruct (k =? h); reflexivity.
  - cbn [map fst] in N. inversion N as [|u v N1 N2]; subst.
    destruct (Z.eqb_spec a h) as [-> | AH].
    + destruct (Z.eqb_spec k h) as [-> | KH].
      * destruct (find h m) eqn:Q; [|reflexivity]. exfalso. apply N1, find_in. congruence.
      * destruct (Z.eqb_spec h k); [congruence | reflexivity].
    + cbn [find]. rewrite IH by exact N2. destruct (Z.eqb_spec k h) as [-> | KH]; [|reflexivity].
      destruct (Z.eqb_spec a h); [congruence | reflexivity].
Qed.

Lemma del_keys : forall h m k, In k (map fst (del h m)) -> In k (map fst m).
Proof.
  intros h m k. induction m as [|[a o] m IH]; cbn [del]; [auto|].
  destruct (a =? h); cbn [map fst In]; [auto|]. intros [-> | I]; auto.
Qed.
Lemma del_nodup : forall h m, NoDup (map fst m) -> NoDup (map fst (del h m)).
Proof.
  intros h m. induction m as [|[a o] m IH]; cbn [del]; [auto|]. intro N.
  cbn [map fst] in N. inversion N as [|u v N1 N2]; subst. destruct (a =? h); [exact N2|].
  cbn [map fst]. constructor; [|apply IH; exact N2]. intro I. apply N1. eapply del_keys. exact I.
Qed.

Lemma count_cons : forall {A} (p : A -> bool) x l, count p (x :: l) = ((if p x then 1 else 0) + count p l)%nat.
Proof. intros A p x l. unfold count. cbn [filter]. destruct (p x); reflexivity. Qed.

Lemma passed_in : forall h o l, In (Passed h o) l -> (1 <= count (passed h) l)%nat.
Proof.
  intros h o l. induction l as [|e l IH]; [contradiction|]. rewrite count_cons. intros [-> | I].
  - cbn [passed]. rewrite Z.eqb_refl. lia.
  - specialize (IH I). lia.
Qed.
Lemma in_passed : forall h l, (1 <= count (passed h) l)%nat -> exists o, In (Passed h o) l.
Proof.
  intros h l. induction l as [|e l IH]; intro C; [cbn in C; lia|]. rewrite count_cons in C.
  destruct e as [k o|k|k o|k]; cbn [passed] in C;
    try (destruct IH as (o' & I); [lia|]; exists o'; right; exact I).
  destruct (Z.eqb_spec k h) as [-> | N]; [exists o; left; reflexivity|].
  destruct IH as (o' & I); [lia|]. exists o'. right. exact I.
Qed.

Lemma inv_init : inv init.
Proof.
  constructor; cbn [init hmap next proxies log find map In].
  - discriminate.
  - reflexivity.
  - intro h. unfold count. cbn. lia.
  - reflexivity.
  - constructor.
  - constructor.
  - contradiction.
  - auto.
  - contradiction.
Qed.

Lemma inv_insert : forall o s, inv s -> inv (f_insert o s).
Proof.
  intros o s [K C1 C2 FR D P L ST CA]. unfold f_insert.
  assert (NF : find (next s) (hmap s) = None).
  { pose proof (C1 (next s)) as Q. rewrite FR in Q by lia. unfold has in Q.
    destruct (find (next s) (hmap s)); [lia | reflexivity]. }
  constructor; cbn [hmap next proxies log].
  - intros h o' Q. cbn [find] in Q. destruct (Z.eqb_spec (next s) h) as [<- | N].
    + injection Q as ->. left. reflexivity.
    + right. apply K. exact Q.
  - intro h. rewrite !count_cons. cbn [passed freed]. unfold has. cbn [find]. specialize (C1 h). unfold has in C1.
    destruct (Z.eqb_spec (next s) h) as [<- | N]; [rewrite NF in C1|]; lia.
  - intro h. rewrite count_cons. cbn [passed]. specialize (C2 h).
    destruct (Z.eqb_spec (next s) h) as [<- | N]; [rewrite FR by lia|]; lia.
  - intros h H. rewrite count_cons. cbn [passed]. rewrite FR by lia.
    destruct (Z.eqb_spec (next s) h); lia.
  - cbn [map fst]. constructor; [|exact D]. rewrite <- find_in. congruence.
  - exact P.
  - intros h I. destruct (L h I) as (o' & Q). cbn [find]. destruct (next s =? h); eauto.
  - intros h [Q | I]; [discriminate | exact (ST h I)].
  - intros h o' [Q | I]; [discriminate | right; apply CA; exact I].
Qed.

Lemma insert_all : forall os s s' hs, f_insert_all os s = (s', hs) -> inv s ->
  inv s' /\ proxies s' = proxies s /\ NoDup hs /\
  (forall h, In h hs -> find h (hmap s') <> None) /\
  (forall h, In h hs -> find h (hmap s) = None /\ next s <= h) /\
  (forall h, find h (hmap s') <> None -> In h hs \/ find h (hmap s) <> None) /\
  (forall h, find h (hmap s) <> None -> find h (hmap s') = find h (hmap s)) /\
  next s <= next s'.
Proof.
  induction os as [|o os IH]; intros s s' hs Q I; cbn [f_insert_all] in Q.
  - injection Q as <- <-. split; [exact I|]. split; [reflexivity|]. split; [constructor|].
    split; [contradiction|]. split; [contradiction|]. split; [auto|]. split; [auto | lia].
  - destruct (f_insert_all os (f_insert o s)) as [t hs'] eqn:R. injection Q as <- <-.
    destruct (IH _ _ _ R (inv_insert o s I)) as (I' & PP & N & A & B & C & D & LE).
    cbn [f_insert next hmap] in *.
    assert (NF : find (next s) (hmap s) = None).
    { pose proof (iv_count s I (next s)) as Q. rewrite (iv_fresh s I) in Q by lia. unfold has in Q.
      destruct (find (next s) (hmap s)); [lia | reflexivity]. }
    split; [exact I'|]. split; [exact PP|].
    split; [constructor; [|exact N]; intro J; destruct (B _ J); lia|].
    split; [intros h [<- | J]; [|apply A; exact J]; rewrite D; cbn [find]; rewrite Z.eqb_refl; discriminate|].
    split; [intros h [<- | J]; [split; [exact NF | lia]|]; destruct (B h J) as [B1 B2];
      cbn [find] in B1; destruct (next s =? h); [discriminate|]; split; [exact B1 | lia]|].
    split; [intros h J; destruct (C h J) as [J' | J']; [left; right; exact J'|];
      cbn [find] in J'; destruct (Z.eqb_spec (next s) h) as [<- | _]; [left; left; reflexivity | right; exact J']|].
    split; [|lia].
    intros h J. rewrite D; cbn [find]; destruct (Z.eqb_spec (next s) h) as [<- | _]; try congruence.
Qed.

Lemma inv_free : forall h s, inv s -> ~ In h (proxies s) -> find h (hmap s) <> None -> inv (free h s).
Proof.
  intros h s [K C1 C2 FR D P L ST CA] NI F. unfold free.
  destruct (find h (hmap s)) as [o|] eqn:Q; [|congruence]. clear F.
  constructor; cbn [hmap next proxies log].
  - intros k o'. rewrite find_del by exact D. destruct (k =? h); [discriminate|]. intro J. right. apply K. exact J.
  - intro k. rewrite !count_cons. cbn [passed freed]. specialize (C1 k). unfold has in *. rewrite find_del by exact D.
    destruct (Z.eqb_spec k h) as [-> | N]; [rewrite Z.eqb_refl, Q in *; lia|].
    destruct (Z.eqb_spec h k); [congruence | lia].
  - intro k. rewrite count_cons. cbn [passed]. exact (C2 k).
  - intros k J. rewrite count_cons. cbn [passed]. rewrite FR by exact J. reflexivity.
  - apply del_nodup. exact D.
  - exact P.
  - intros k J. rewrite find_del by exact D. destruct (Z.eqb_spec k h) as [-> | _]; [contradiction|]. apply L. exact J.
  - intros k [J | J]; [discriminate | exact (ST k J)].
  - intros k o' [J | J]; [discriminate | right; apply CA; exact J].
Qed.

Lemma free_proxies : forall h s, proxies (free h s) = proxies s.
Proof. intros h s. unfold free. destruct (find h (hmap s)); reflexivity. Qed.

Lemma inv_free_all : forall hs s, inv s -> NoDup hs ->
  (forall h, In h hs -> ~ In h (proxies s) /\ find h (hmap s) <> None) ->
  inv (free_all hs s) /\ proxies (free_all hs s) = proxies s /\
  (forall h, find h (hmap (free_all hs s)) <> None <-> find h (hmap s) <> None /\ ~ In h hs).
Proof.
  induction hs as [|x hs IH]; intros s I N A; cbn [free_all].
  - split; [exact I|]. split; [reflexivity|]. intro h. split; [intro J; split; [exact J | intros []] | intros [J _]; exact J].
  - inversion N as [|u v N1 N2]; subst.
    destruct (A x (or_introl eq_refl)) as [A1 A2].
    pose proof (iv_del s I) as D.
    assert (FX : forall h, find h (hmap (free x s)) = if h =? x then None else find h (hmap s)).
    { intro h. unfold free. destruct (find x (hmap s)) eqn:Q; [|congruence]. cbn [hmap]. apply find_del. exact D. }
    destruct (IH (free x s)) as (I' & P' & F').
    + apply inv_free; assumption.
    + exact N2.
    + intros h J. rewrite free_proxies, FX. destruct (A h (or_intror J)) as [B1 B2]. split; [exact B1|].
      destruct (Z.eqb_spec h x) as [-> | _]; [contradiction | exact B2].
    + split; [exact I'|]. split; [rewrite P'; apply free_proxies|].
      intro h. rewrite F', FX. cbn [In]. destruct (Z.eqb_spec h x) as [-> | NX].
      * split; [intros [J _]; congruence | intros [_ J]; exfalso; apply J; left; reflexivity].
      * split; intros [J1 J2]; split; auto. intros [J | J]; [congruence | contradiction].
Qed.

Lemma remove_nth_in : forall l i x h, nth_error l i = Some x -> NoDup l ->
  (In h (remove_nth i l) <-> In h l /\ h <> x) /\ NoDup (remove_nth i l).
Proof.
  induction l as [|y l IH]; intros [|i] x h Q N; try discriminate; inversion N as [|u v N1 N2]; subst.
  - cbn in Q. injection Q as ->. cbn [remove_nth In]. split; [|exact N2]. split.
    + intro J. split; [right; exact J|]. intros ->. contradiction.
    + intros [[-> | J] M]; [congruence | exact J].
  - cbn [nth_error] in Q. destruct (IH i x h Q N2) as [A B]. cbn [remove_nth In]. split.
    + rewrite A. split; [intros [-> | [J M]]; split; auto; intros -> ; apply nth_error_In in Q; contradiction|].
      intros [[-> | J] M]; auto.
    + constructor; [|exact B]. intro J.
      destruct (IH i x y Q N2) as [A' _]. apply A' in J. destruct J. contradiction.
Qed.

Lemma inv_step : forall s x, inv s -> inv (step s x).
Proof.
  intros s [os | os n | i | i] I; cbn [step].
  - destruct (f_insert_all os s) as [s' hs] eqn:Q.
    destruct (insert_all _ _ _ _ Q I) as (I' & PP & N & A & B & C & D & LE).
    destruct I' as [K C1 C2 FR DD P L ST CA]. constructor; cbn [hmap next proxies log]; auto.
    + assert (G : forall h, In h hs -> ~ In h (proxies s')).
      { intros h J J'. rewrite PP in J'. destruct (iv_live s I h J') as (o & F). destruct (B h J). congruence. }
      clear - N P G. induction hs as [|h hs IH]; [exact P|]. inversion N as [|u v N1 N2]; subst.
      cbn [app]. constructor; [|apply IH; [exact N2 | intros k J; apply G; right; exact J]].
      intro J. apply in_app_or in J. destruct J as [J | J]; [contradiction|].
      exact (G h (or_introl eq_refl) J).
    + intros h J. apply in_app_or in J. destruct J as [J | J]; [|apply L; exact J].
      specialize (A h J). destruct (find h (hmap s')) as [o|]; [exists o; reflexivity | congruence].
  - destruct (f_insert_all os s) as [s' hs] eqn:Q.
    destruct (insert_all _ _ _ _ Q I) as (I' & PP & N & A & B & C & D & LE).
    assert (IN : forall h, In h (firstn n hs) -> In h hs).
    { intros h J. rewrite <- (firstn_skipn n hs). apply in_or_app. left. exact J. }
    apply inv_free_all; [exact I'| |].
    + clear - N. revert n. induction hs as [|h hs IH]; intros [|n]; cbn [firstn]; try constructor.
      * inversion N as [|u v N1 N2]; subst. intro J. apply N1. rewrite <- (firstn_skipn n hs). apply in_or_app. left. exact J.
      * inversion N; subst. apply IH. assumption.
    + intros h J. apply IN in J. split; [|apply A; exact J]. rewrite PP. intro J'.
      destruct (iv_live s I h J') as (o & F). destruct (B h J). congruence.
  - destruct (nth_error (proxies s) i) as [h|] eqn:Q; [|exact I].
    apply nth_error_In in Q. destruct (iv_live s I h Q) as (o & F).
    pose proof (iv_keys s I h o F) as PK.
    destruct I as [K C1 C2 FR D P L ST CA]. unfold call_on. rewrite F.
    constructor; cbn [hmap next proxies log].
    + intros k o' J. right. apply K. exact J.
    + intro k. rewrite !count_cons. cbn [passed freed]. apply C1.
    + intro k. rewrite count_cons. cbn [passed]. apply C2.
    + intros k J. rewrite count_cons. cbn [passed]. rewrite FR by exact J. reflexivity.
    + exact D.
    + exact P.
    + exact L.
    + intros k [J | J]; [discriminate | exact (ST k J)].
    + intros k o' [J | J]; [injection J as -> ->; right; exact PK | right; apply CA; exact J].
  - destruct (nth_error (proxies s) i) as [h|] eqn:Q; [|exact I].
    destruct (iv_live s I h (nth_error_In _ _ Q)) as (o & F).
    destruct I as [K C1 C2 FR D P L ST CA].
    apply inv_free; cbn [proxies hmap]; [|destruct (remove_nth_in _ _ _ h Q P) as [R _]; rewrite R; intros [_ J]; apply J; reflexivity | congruence].
    constructor; cbn [hmap next proxies log]; auto.
    + apply (remove_nth_in _ _ _ h Q P).
    + intros k J. apply (remove_nth_in _ _ _ k Q P) in J. destruct J as [J _]. apply L. exact J.
Qed.

Lemma inv_run : forall xs, inv (run xs).
Proof.
  intro xs. unfold run. generalize inv_init. generalize init.
  induction xs as [|x xs IH]; intros s I; [exact I|]. apply IH, inv_step, I.
Qed.

(** No leak. *)
Definition all_owned (s : state) : Prop := forall h, find h (hmap s) <> None -> In h (proxies s).

Lemma owned_step : forall s x, inv s -> all_owned s -> lifted_all [x] -> all_owned (step s x).
Proof.
  intros s [os | os n | i | i] I OW LA; cbn [step].
  - destruct (f_insert_all os s) as [s' hs] eqn:Q.
    destruct (insert_all _ _ _ _ Q I) as (I' & PP & N & A & B & C & D & LE).
    intros h F. cbn [proxies hmap] in *. apply in_or_app. destruct (C h F) as [J | J]; [left; exact J | right].
    rewrite PP. apply OW. exact J.
  - destruct (f_insert_all os s) as [s' hs] eqn:Q.
    destruct (insert_all _ _ _ _ Q I) as (I' & PP & N & A & B & C & D & LE).
    assert (LH : length hs = length os).
    { clear - Q. revert s s' hs Q. induction os as [|o os IH]; intros s s' hs Q; cbn [f_insert_all] in Q.
      - injection Q as <- <-. reflexivity.
      - destruct (f_insert_all os (f_insert o s)) as [t hs'] eqn:R. injection Q as <- <-.
        cbn [length]. f_equal. eapply IH. exact R. }
    inversion LA as [|u v L1 _]; subst. rewrite firstn_all2 by lia.
    destruct (inv_free_all hs s') as (_ & P' & F').
    + exact I'.
    + exact N.
    + intros h J. split; [|apply A; exact J]. rewrite PP. intro J'.
      destruct (iv_live s I h J') as (o & F). destruct (B h J). congruence.
    + intros h F. apply F' in F. destruct F as [F NI]. rewrite P', PP. apply OW.
      destruct (C h F) as [J | J]; [contradiction | exact J].
  - destruct (nth_error (proxies s) i) as [h|]; [|exact OW]. exact OW.
  - destruct (nth_error (proxies s) i) as [h|] eqn:Q; [|exact OW].
    destruct (iv_live s I h (nth_error_In _ _ Q)) as (o & F).
    unfold free. cbn [hmap]. rewrite F. intros k J. cbn [hmap proxies] in J |- *.
    rewrite find_del in J by apply (iv_del s I). revert J.
    destruct (Z.eqb_spec k h) as [-> | NK]; [congruence|]. intro J.
    apply (remove_nth_in _ _ _ k Q (iv_prox s I)). split; [apply OW; exact J | exact NK].
Qed.

Lemma owned_run : forall xs, lifted_all xs -> all_owned (run xs).
Proof.
  intros xs LA. unfold run.
  assert (G : forall s, inv s -> all_owned s -> all_owned (fold_left step xs s)).
  { induction xs as [|x xs IH]; intros s I OW; [exact OW|]. inversion LA as [|u v L1 L2]; subst.
    cbn [fold_left]. apply IH; [exact L2 | apply inv_step; exact I|].
    apply owned_step; [exact I | exact OW | constructor; [exact L1 | constructor]]. }
  apply G; [exact inv_init|]. intros h F. cbn in F. congruence.
Qed.

Lemma never_stale : forall xs h, ~ In (Stale h) (log (run xs)).
Proof. intros xs h. apply (iv_stale _ (inv_run xs)). Qed.

Lemma freed_at_most_once : forall xs h, (count (freed h) (log (run xs)) <= 1)%nat.
Proof.
  intros xs h. pose proof (iv_once _ (inv_run xs) h). pose proof (iv_count _ (inv_run xs) h). lia.
Qed.

Lemma held_not_freed : forall xs h, In h (proxies (run xs)) -> count (freed h) (log (run xs)) = 0%nat.
Proof.
  intros xs h I. destruct (iv_live _ (inv_run xs) h I) as (o & F).
  pose proof (iv_once _ (inv_run xs) h). pose proof (iv_count _ (inv_run xs) h) as C. unfold has in C.
  rewrite F in C. lia.
Qed.

Lemma reaches_own_object : forall xs h o o', In (Called h o) (log (run xs)) -> In (Passed h o') (log (run xs)) -> o = o'.
Proof.
  intros xs h o o' C P. apply (iv_called _ (inv_run xs)) in C.
  pose proof (iv_once _ (inv_run xs) h) as N. revert C P N. generalize (log (run xs)). clear.
  induction l as [|e l IH]; intros C P N; [contradiction|]. rewrite count_cons in N.
  destruct C as [-> | C], P as [Q | P].
  - injection Q as ->. reflexivity.
  - cbn [passed] in N. rewrite Z.eqb_refl in N. pose proof (passed_in _ _ _ P). lia.
  - subst e. cbn [passed] in N. rewrite Z.eqb_refl in N. pose proof (passed_in _ _ _ C). lia.
  - apply IH; [exact C | exact P | lia].
Qed.

Lemma freed_when_dropped : forall xs h o, lifted_all xs ->
  In (Passed h o) (log (run xs)) -> ~ In h (proxies (run xs)) -> count (freed h) (log (run xs)) = 1%nat.
Proof.
  intros xs h o LA P NI. pose proof (iv_once _ (inv_run xs) h). pose proof (iv_count _ (inv_run xs) h) as C.
  pose proof (passed_in _ _ _ P). unfold has in C.
  destruct (find h (hmap (run xs))) eqn:F; [|lia]. exfalso. apply NI, (owned_run xs LA). congruence.
Qed.

Lemma map_empty : forall xs, lifted_all xs -> proxies (run xs) = [] -> hmap (run xs) = [].
Proof.
  intros xs LA P. pose proof (owned_run xs LA) as OW. unfold all_owned in OW. rewrite P in OW.
  destruct (hmap (run xs)) as [|[h o] m]; [reflexivity|]. exfalso. apply (OW h). cbn [find].
  rewrite Z.eqb_refl. discriminate.
Qed.
