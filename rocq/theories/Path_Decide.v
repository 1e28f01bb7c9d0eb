(** A test for [tree], to give examples. *)
From Verif Require Import Base Meta_Types Path_Types Path_Spec Path_Proofs.

Definition entries (r : ir) : list (option nat * item) :=
  flat_map (fun e => map (fun it => (Some (fst e), it)) (snd e)) (mods r) ++ map (fun e => (None, snd e)) (roots r).
Definition module_entries (r : ir) : list (nat * (option nat * item)) :=
  flat_map (fun e => match i_kind (snd e) with KModule k => [(k, e)] | _ => [] end) (entries r).
Fixpoint distinct (l : list nat) : bool :=
  match l with
  | [] => true
  | a :: l => negb (existsb (Nat.eqb a) l) && distinct l
  end.
Definition tree_b (r : ir) : bool :=
  distinct (map fst (module_entries r)) &&
  forallb (fun e => match i_kind (snd e) with KModule _ => true | _ => false end) (roots r).

Lemma distinct_ok l : distinct l = true -> NoDup l.
Proof.
  induction l as [| a l IH]; cbn; intro H; constructor.
  - apply andb_prop in H as [H _]. intro I. apply negb_true_iff in H.
    assert (existsb (Nat.eqb a) l = true); [|congruence]. apply existsb_exists. exists a. split; auto. apply Nat.eqb_refl.
  - apply andb_prop in H as [_ H]. auto.
Qed.
Lemma same_entry {A} (l : list (nat * A)) : NoDup (map fst l) -> forall k a b, In (k, a) l -> In (k, b) l -> a = b.
Proof.
  induction l as [| [k' c] l IH]; cbn; intros N k a b A1 B1; [destruct A1|].
  inversion N as [| ? ? N1 N2]; subst.
  destruct A1 as [A1 | A1], B1 as [B1 | B1].
  - congruence.
  - injection A1 as -> ->. elim N1. apply in_map_iff. exists (k, b). auto.
  - injection B1 as -> ->. elim N1. apply in_map_iff. exists (k, a). auto.
  - eapply IH; eauto.
Qed.
Lemma entry_item r m it k : In it (items_of r m) -> i_kind it = KModule k -> In (k, (Some m, it)) (module_entries r).
Proof.
  intros I K. apply items_in in I as (its & A & B). unfold module_entries. apply in_flat_map.
  exists (Some m, it). split; [|cbn; rewrite K; now left].
  unfold entries. apply in_or_app. left. apply in_flat_map. exists (m, its). split; auto.
  apply in_map_iff. exists it. auto.
Qed.
Lemma entry_root r x it k : In (x, it) (roots r) -> i_kind it = KModule k -> In (k, (None, it)) (module_entries r).
Proof.
  intros I K. unfold module_entries. apply in_flat_map. exists (None, it). split; [|cbn; rewrite K; now left].
  unfold entries. apply in_or_app. right. apply in_map_iff. exists (x, it). auto.
Qed.
Lemma tree_ok r : tree_b r = true -> tree r.
Proof.
  unfold tree_b. intro H. apply andb_prop in H as [H1 H2]. apply distinct_ok in H1. rewrite forallb_forall in H2.
  repeat split.
  - pose proof (same_entry _ H1 _ _ _ (entry_item _ _ _ _ H H3) (entry_item _ _ _ _ H0 H4)). congruence.
  - pose proof (same_entry _ H1 _ _ _ (entry_item _ _ _ _ H H3) (entry_item _ _ _ _ H0 H4)). congruence.
  - intros x a I. specialize (H2 _ I). cbn in H2. destruct (i_kind a); try discriminate. eauto.
  - intros x a y b k A B KA KB. pose proof (same_entry _ H1 _ _ _ (entry_root _ _ _ _ A KA) (entry_root _ _ _ _ B KB)). congruence.
  - intros x a m b k A B KA KB. pose proof (same_entry _ H1 _ _ _ (entry_root _ _ _ _ A KA) (entry_item _ _ _ _ B KB)). congruence.
Qed.
