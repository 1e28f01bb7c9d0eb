(** Enums with a comma after the last variant. *)
From Verif Require Import Weed_Model Weed_Spec Weed_Tokens Weed_Refine Weed_Words Weed_Round Weed_Defs Weed_Main.

Definition variant_g : G (option text * text) := c <- Opt Doc ;; s <- Lex LStr ;; Ret (c, s).
Lemma variant_round : forall v r, trun variant_g (variant_tokens v ++ r) = TSome v r.
Proof. intros [c s] r. unfold variant_g, variant_tokens. cbn [fst snd]. rewrite <- app_assoc. rewrite trun_bind, doc_round by (intros d x E; discriminate E). reflexivity. Qed.
Lemma tsep_trailing : forall r l fuel, List.length l <= fuel ->
  tsep (LPunct ","%char) (trun variant_g) fuel (flat_map (fun b => P "," :: variant_tokens b) l ++ P "," :: P "}" :: r) = TSome l (P "," :: P "}" :: r).
Proof.
  intros r. induction l as [| v l IH]; intros fuel L.
  - destruct fuel; reflexivity.
  - destruct fuel as [| fuel]; [cbn in L; lia |]. cbn [flat_map app tsep].
    change (tlex (LPunct ","%char) (P "," :: ?x)) with (TSome [","%char] x). cbv iota beta. rewrite <- app_assoc. rewrite variant_round.
    rewrite IH; [reflexivity | cbn in L; lia].
Qed.
Lemma variants_trailing : forall l r, l <> [] -> trun (braced variants_g) (braces (commas variant_tokens l ++ [P ","]) ++ r) = TSome l r.
Proof.
  intros l r N. apply braced_round. intros r'. unfold variants_g. fold variant_g. rewrite trun_bind.
  destruct l as [| v l]; [contradiction |]. rewrite commas_cons, <- !app_assoc. cbn [trun]. rewrite variant_round. cbn [app].
  rewrite tsep_trailing; [reflexivity |]. rewrite app_length.
  assert (K : List.length l <= List.length (flat_map (fun b => P "," :: variant_tokens b) l)); [| lia].
  clear. induction l as [| a l IH]; [cbn; lia |]. cbn [flat_map List.length]. rewrite app_length. cbn [List.length]. lia.
Qed.
Lemma written_round : forall d x ts r, def_ok x -> written x ts -> List.length ts <= d -> trun (def_g d) (ts ++ r) = TSome x r.
Proof.
  intros d x ts r O H L. destruct H as [x | c a w l]; [apply def_round; assumption |]. rewrite def_step. rewrite !trun_cons. cbn [def_ok] in O. rewrite <- ?app_assoc. cbn [app].
  destruct O as (Oa & Ow & N & _). rewrite callback_none by (try exact Oa; reflexivity). unfold cbi_g at 1. skip1. unfold interface_g at 1. skip1.
  unfold namespace_g at 1. skip1. unfold dictionary_g at 1. skip1. unfold enum_g at 1. rewrite docs_attrs by (try exact Oa; apply plain_W). rewrite trun_bind, tkW by reflexivity. eqts.
  rewrite trun_bind, tident by exact Ow. rewrite trun_bind, variants_trailing by exact N. reflexivity.
Qed.
Lemma written_nonempty : forall x ts, written x ts -> ts <> [].
Proof. intros x ts [d | c a w l]; [apply def_nonempty |]. intros E. apply (f_equal (@List.length _)) in E. rewrite ?app_length in E. cbn in E. lia. Qed.
Lemma all_round : forall d l tss, Forall def_ok l -> Forall2 written l tss -> List.length (List.concat tss) <= d -> trun (Many (def_g d)) (List.concat tss) = TSome l [].
Proof.
  intros d l tss F H L. cbn [trun].
  assert (K : forall fuel, List.length l <= fuel -> tmany (trun (def_g d)) fuel (List.concat tss) = TSome l []).
  { revert F L. induction H as [| x ts l tss Hx H IH]; intros F L fuel B.
    - destruct fuel; cbn [List.concat tmany]; rewrite def_step; reflexivity.
    - inversion F as [| ? ? O F']; subst. cbn [List.concat] in *. rewrite app_length in L. destruct fuel as [| fuel]; [cbn in B; lia |]. cbn [tmany].
      rewrite (written_round d x ts _ O Hx) by lia. replace (_ =? _)%nat with false.
      + rewrite IH; [reflexivity | exact F' | lia | cbn in B; lia].
      + symmetry. apply Nat.eqb_neq. rewrite app_length. pose proof (written_nonempty _ _ Hx). destruct ts; [congruence | cbn; lia]. }
  apply K. clear -H. induction H as [| x ts l tss Hx H IH]; [cbn; lia |]. cbn [List.concat List.length]. rewrite app_length.
  pose proof (written_nonempty _ _ Hx). destruct ts; [congruence | cbn; lia].
Qed.
Lemma read_written : forall l tss s w w', Forall def_ok l -> l <> [] -> Forall2 written l tss -> spells (List.concat tss) s -> edges s -> Forall white w -> Forall white w' ->
  read_udl (w ++ s ++ w') = Parsed l.
Proof.
  intros l tss s w w' F N W2 H Ed Fw Fw'.
  assert (K : forall v, Forall white v -> forallb trimmed v = true).
  { intros v Fv. apply forallb_forall. intros x I. rewrite Forall_forall in Fv. specialize (Fv x I). apply white_is in Fv. unfold trimmed. rewrite Fv. reflexivity. }
  unfold read_udl. rewrite trim_edges by auto.
  assert (D : definitions s = Some (l, [])); [| rewrite D; reflexivity].
  unfold definitions.
  pose proof (run_agrees [] eq_refl lex_empty eq_refl _ (Many (def_g (List.length s))) (good_def _) (List.concat tss) s (spells_nothing _ _ H)) as A.
  rewrite (all_round (List.length s) l tss F W2 (lex_length _ _ H)) in A. destruct A as (s' & E & S & _). rewrite E. cbn [run] in E.
  destruct (many_ends _ _ (ends_def _) _ _ _ _ E) as [(-> & _) | (x & ->)]; [congruence |].
  destruct (spelt_sp [] eq_refl [] (sp x) S) as [_ Z]. rewrite <- (Z eq_refl). rewrite (sp_stops (sp x) (sp_stop x)). reflexivity.
Qed.
