(** Tests for hypotheses, to give examples. *)
From Verif Require Import Base Meta_Types Path_Types Path_Spec Path_Proofs Path_Decide Pub_Spec Pub_Proofs.

Definition addresses (r : ir) : list (option nat) :=
  map (fun e => match i_id (snd e) with Src k => Some k | Std _ => None end) (entries r).
Fixpoint somes (l : list (option nat)) : option (list nat) :=
  match l with
  | [] => Some []
  | Some k :: l => match somes l with Some l => Some (k :: l) | None => None end
  | None :: _ => None
  end.
Definition own_addresses_b (r : ir) : bool :=
  match somes (addresses r) with Some l => distinct l | None => false end.
Lemma somes_map l : forall ks, somes l = Some ks -> l = map Some ks.
Proof.
  induction l as [| [k|] l IH]; cbn; intros ks; try discriminate; [now intros [= <-]|].
  destruct (somes l); [|discriminate]. intros [= <-]. cbn. now rewrite (IH _ eq_refl).
Qed.
Lemma place_entry r a s : place r (a :: s) -> (exists o, In (o, a) (entries r)) \/ exists b, a = std b.
Proof.
  intro P. inversion P as [x i I | p m self i P' K I | b]; subst.
  - left. exists None. unfold entries. apply in_or_app. right. apply in_map_iff. exists (x, a). auto.
  - left. exists (Some m). apply items_in in I as (its & A & B). unfold entries. apply in_or_app. left.
    apply in_flat_map. exists (m, its). split; auto. apply in_map_iff. exists a. auto.
  - right. eauto.
Qed.
Lemma by_address {A} (f : A -> option nat) l : forall ks, map f l = map Some ks -> NoDup ks ->
  forall a b k, In a l -> In b l -> f a = Some k -> f b = Some k -> a = b.
Proof.
  induction l as [| x l IH]; intros [| k0 ks] E N a b k Ia Ib Fa Fb; try discriminate E; [destruct Ia|].
  cbn in E. injection E as E0 E. inversion N as [| ? ? N1 N2]; subst.
  assert (NO : forall c, In c l -> f c <> Some k0).
  { intros c Ic Fc. apply N1. assert (In (Some k0) (map Some ks)) as Y.
    - rewrite <- E. apply in_map_iff. eauto.
    - apply in_map_iff in Y as (? & [= ->] & ?). auto. }
  destruct Ia as [<- | Ia], Ib as [<- | Ib]; auto.
  - elim (NO b Ib). congruence.
  - elim (NO a Ia). congruence.
  - eapply IH; eauto.
Qed.
Lemma own_addresses_ok r : own_addresses_b r = true -> own_addresses r.
Proof.
  unfold own_addresses_b. destruct (somes (addresses r)) as [ks|] eqn:SO; [|discriminate]. intro D.
  apply distinct_ok in D. apply somes_map in SO. unfold addresses in SO.
  intros a b s u P Q I. unfold is_item in I.
  destruct (place_entry _ _ _ P) as [[o Ea] | [sa ->]], (place_entry _ _ _ Q) as [[o' Eb] | [sb ->]].
  - destruct (i_id a) as [ka|] eqn:IA.
    + destruct (i_id b) as [kb|] eqn:IB; [|discriminate]. apply Nat.eqb_eq in I. subst kb.
      assert (((o, a) : option nat * item) = (o', b)) as EQ; [|congruence].
      eapply (by_address _ _ _ SO D) with (k := ka); eauto; cbn; [now rewrite IA | now rewrite IB].
    + exfalso. assert (In None (map Some ks)) as Y.
      { rewrite <- SO. apply in_map_iff. exists (o, a). split; auto. cbn. now rewrite IA. }
      apply in_map_iff in Y as (? & ? & _). discriminate.
  - exfalso. cbn in I. destruct (i_id a) eqn:IA; [discriminate|]. assert (In None (map Some ks)) as Y.
    { rewrite <- SO. apply in_map_iff. exists (o, a). split; auto. cbn. now rewrite IA. }
    apply in_map_iff in Y as (? & ? & _). discriminate.
  - exfalso. cbn in I. destruct (i_id b) eqn:IB; [discriminate|]. assert (In None (map Some ks)) as Y.
    { rewrite <- SO. apply in_map_iff. exists (o', b). split; auto. cbn. now rewrite IB. }
    apply in_map_iff in Y as (? & ? & _). discriminate.
  - cbn in I. destruct sa, sb; cbn in I; try discriminate; apply eqb_eq in I; now subst.
Qed.
(** To look at what all modules have, look at each of them in its place. *)
Definition public_uses (r : ir) : list (nat * item) :=
  flat_map (fun e => flat_map (fun it => match i_vis it, i_kind it with
    | Public, (KUse _ | KGlob _) => [(fst e, it)] | _, _ => [] end) (snd e)) (mods r).
Lemma settled_ok r n : tree r ->
  Forall (fun e => exists q, place r q /\ top_module q = Some (fst e) /\
    match i_kind (snd e) with
    | KUse p => exists o, refers r q p n o
    | KGlob p => exists o, refers r q p NsType o /\ forall i, o = Some i -> exists k, top_module i = Some k
    | _ => True
    end) (public_uses r) -> settled r n.
Proof.
  intros TR F q m it p P TM I PB. rewrite Forall_forall in F.
  assert (A : forall K : (exists p, i_kind it = KUse p \/ i_kind it = KGlob p), In (m, it) (public_uses r)).
  { intros [p' K]. apply items_in in I as (its & A & B). unfold public_uses. apply in_flat_map. exists (m, its).
    split; auto. cbn [fst snd]. apply in_flat_map. exists it. split; auto. rewrite PB.
    destruct K as [-> | ->]; now left. }
  split; intro K.
  - destruct (F _ (A ltac:(eauto))) as (q' & P' & TM' & X). cbn [fst snd] in *. rewrite K in X.
    now rewrite (place_key _ _ _ _ TR P P' TM TM').
  - destruct (F _ (A ltac:(eauto))) as (q' & P' & TM' & X). cbn [fst snd] in *. rewrite K in X.
    now rewrite (place_key _ _ _ _ TR P P' TM TM').
Qed.
