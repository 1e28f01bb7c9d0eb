From Coq Require Import Lia.
From Verif Require Import Base Meta_Types Path_Types Path_Spec Path_Model Path_Claims Path_Proofs Path_Decide
  Pub_Spec Pub_Model Pub_Claims.

Lemma path_of_length q : length (path_of q) = length q.
Proof. unfold path_of. now rewrite rev_length, map_length. Qed.
Lemma top_inv q m : top_module q = Some m -> exists it s, q = it :: s /\ i_kind it = KModule m.
Proof. destruct q as [| it s]; [discriminate|]. cbn. destruct (i_kind it) eqn:K; try discriminate. intros [= <-]. eauto. Qed.
Lemma place_in r q m it : place r q -> top_module q = Some m -> In it (items_of r m) -> place r (it :: q).
Proof. intros P TM I. destruct (top_inv _ _ TM) as (a & s & -> & K). econstructor; eauto. Qed.
Lemma is_pub_eq it : is_pub it = true -> i_vis it = Public.
Proof. unfold is_pub. now destruct (i_vis it). Qed.
Lemma pub_is it : i_vis it = Public -> is_pub it = true.
Proof. unfold is_pub. now intros ->. Qed.
Lemma offers_mono r (A B A' B' : rpath -> path -> rpath -> Prop) :
  (forall q p i, A q p i -> A' q p i) -> (forall q p i, B q p i -> B' q p i) ->
  forall q x i, offers r A B q x i -> offers r A' B' q x i.
Proof. intros HA HB q x i O1. induction O1; [eapply of_own | eapply of_use | eapply of_glob]; eauto. Qed.

(** A path that a public [use] or glob of the module gives. *)
Definition given (r : ir) (q : rpath) (p : path) : Prop :=
  exists m it, top_module q = Some m /\ In it (items_of r m) /\ i_vis it = Public /\
    (i_kind it = KUse p \/ i_kind it = KGlob p).

Lemma ident_item_name t x : ident t = Some x -> item_name t = x.
Proof. unfold item_name. now intros ->. Qed.
Lemma alias_binding t x : ident t = Some x ->
  binding_name t = match alias_of t with Some a => a | None => x end.
Proof.
  intro I. unfold binding_name, alias_of. rewrite (ident_item_name _ _ I).
  destruct (i_kind t); auto.
Qed.
Lemma own_import mp t x : import_name (own_names mp t x) = x.
Proof. unfold own_names. now destruct (alias_of t). Qed.
Lemma own_binding mp t x : ident t = Some x -> n_name (own_names mp t x) = binding_name t.
Proof. intro I. rewrite (alias_binding _ _ I). unfold own_names. now destruct (alias_of t). Qed.
Lemma own_module mp t x : n_module (own_names mp t x) = path_of mp.
Proof. unfold own_names. now destruct (alias_of t). Qed.
Lemma used_import mp t x y : import_name (used_names mp t x y) = y.
Proof. unfold used_names. destruct (bytes_eqb _ y) eqn:E; auto. now apply eqb_eq in E. Qed.
Lemma used_binding mp t x y : ident t = Some x -> n_name (used_names mp t x y) = binding_name t.
Proof. intro I. rewrite (alias_binding _ _ I). unfold used_names. destruct (bytes_eqb _ y); auto. Qed.
Lemma used_module mp t x y : n_module (used_names mp t x y) = path_of mp.
Proof. unfold used_names. now destruct (bytes_eqb _ y). Qed.

(** ** Searches, given what lookups do *)
Section Generic.
  Variable r : ir.
  Variable T : Type.
  Variable look : rpath -> path -> ns -> M T rpath.
  Variable t : item.
  Variable n : ns.
  Variable J : T -> Prop.
  Variable R : rpath -> path -> rpath -> Prop.
  Variable tp : rpath.
  Hypothesis OWN : own_addresses r.
  Hypothesis TP : place r (t :: tp).
  Hypothesis H : forall self p s o s', place r self -> given r self p -> J s -> look self p n s = Some (o, s') ->
    J s' /\ (forall q, o = Found q -> place r q /\ R self p q).

  Definition good (q : rpath) (nm : names) : Prop :=
    n_name nm = binding_name t /\ n_module nm = path_of q /\
    exists i, offers r R R q (import_name nm) i /\ is_path_to t i.
  Definition fine (q : rpath) (s : st T) (o : out (option names)) (s' : st T) : Prop :=
    J (fst s') /\ forall nm, o = Found (Some nm) -> good q nm.

  Lemma scan_sound again mp m : place r mp -> top_module mp = Some m ->
    (forall q k s o s', place r q -> top_module q = Some k -> J (fst s) -> again q k s = Some (o, s') -> fine q s o s') ->
    forall its s o s', incl its (items_of r m) -> J (fst s) ->
    scan look t n again mp its s = Some (o, s') -> fine mp s o s'.
  Proof.
    intros P TM AG its. induction its as [| it its IH]; intros s o s' IN I E; cbn [scan] in E.
    { injection E as <- <-. split; auto. congruence. }
    assert (INi : In it (items_of r m)) by (apply IN; now left).
    assert (IN' : incl its (items_of r m)) by (intros ? ?; apply IN; now right).
    destruct (is_item it t) eqn:IS.
    { destruct (ident t) as [x|] eqn:ID; injection E as <- <-; (split; [auto|]); [|congruence].
      intros nm [= <-]. unfold good. rewrite own_import, (own_binding _ _ _ ID), own_module. repeat split; auto.
      assert (it = t) as -> by (eapply OWN; eauto using place_in).
      exists (t :: mp). split; [eapply of_own; eauto|]. exists t, mp. split; auto. }
    destruct (i_kind it) as [| | | | | | | | | p | p | | | |] eqn:K; try (eapply IH; eauto; fail).
    - destruct (is_pub it) eqn:PB; [|eapply IH; eauto]. apply is_pub_eq in PB.
      assert (G : given r mp p) by (exists m, it; auto). unfold looks in E.
      destruct (look mp p n (fst s)) as [[[q|e] s1]|] eqn:L; try discriminate.
      + destruct (H _ _ _ _ _ P G I L) as [I1 Q]. destruct (Q _ eq_refl) as [Q1 Q2].
        destruct q as [| i q]; [now apply place_not_nil in Q1|].
        destruct (is_item i t) eqn:IT; [|exact (IH (s1, snd s) _ _ IN' I1 E)].
        destruct (ident t) as [x|] eqn:ID; injection E as <- <-; (split; [auto|]); [|congruence].
        intros nm [= <-]. unfold good. rewrite used_import, (used_binding _ _ _ _ ID), used_module. repeat split; auto.
        exists (i :: q). split; [eapply of_use; eauto | exists i, q; auto].
      + destruct (H _ _ _ _ _ P G I L) as [I1 _].
        destruct e; try (injection E as <- <-; split; [auto | congruence]).
        exact (IH (s1, snd s) _ _ IN' I1 E).
    - destruct (is_pub it) eqn:PB; [|eapply IH; eauto]. apply is_pub_eq in PB.
      assert (G : given r mp p) by (exists m, it; auto). unfold looks in E.
      destruct (look mp p n (fst s)) as [[[q|e] s1]|] eqn:L; try discriminate.
      + destruct (H _ _ _ _ _ P G I L) as [I1 Q]. destruct (Q _ eq_refl) as [Q1 Q2].
        destruct (top_module q) as [k|] eqn:TQ; [|injection E as <- <-; split; [auto | congruence]].
        destruct (again q k (s1, snd s)) as [[[[nm|]|e] s2]|] eqn:A; try discriminate.
        * destruct (AG q k (s1, snd s) _ _ Q1 TQ I1 A) as [I2 GD]. injection E as <- <-. split; auto. intros nm' [= <-].
          destruct (GD _ eq_refl) as (B1 & B2 & i & B3 & B4). unfold good. cbn [n_name n_module import_name n_orig].
          repeat split; auto. exists i. split; auto. eapply of_glob; eauto.
        * destruct (AG q k (s1, snd s) _ _ Q1 TQ I1 A) as [I2 _]. exact (IH s2 _ _ IN' I2 E).
        * destruct (AG q k (s1, snd s) _ _ Q1 TQ I1 A) as [I2 _]. injection E as <- <-. split; [auto | congruence].
      + destruct (H _ _ _ _ _ P G I L) as [I1 _].
        destruct e; try (injection E as <- <-; split; [auto | congruence]).
        exact (IH (s1, snd s) _ _ IN' I1 E).
  Qed.
  Lemma search_sound d : forall q k s o s', place r q -> top_module q = Some k -> J (fst s) ->
    search r look t n d q k s = Some (o, s') -> fine q s o s'.
  Proof.
    induction d as [| d IH]; intros q k s o s' P TM I E; cbn [search] in E; [discriminate|].
    destruct (existsb (Nat.eqb k) (snd s)).
    - injection E as <- <-. split; [auto | congruence].
    - exact (scan_sound _ _ _ P TM IH (items_of r k) (fst s, k :: snd s) _ _ (incl_refl _) I E).
  Qed.
  Definition okl (l : list (rpath * nat)) : Prop := forall q k, In (q, k) l -> place r q /\ top_module q = Some k.
  Lemma level_sound d : forall l s o s', okl l -> J (fst s) -> level r look t n d l s = Some (o, s') ->
    J (fst s') /\ forall nm, o = Found (Some nm) -> exists q k, In (q, k) l /\ good q nm.
  Proof.
    induction l as [| [q k] l IH]; intros s o s' OK I E; cbn [level] in E.
    { injection E as <- <-. split; [auto | congruence]. }
    unfold bind in E. destruct (OK q k) as [P TM]; [now left|].
    destruct (search r look t n d q k s) as [[[[nm|]|e] s1]|] eqn:SE; try discriminate;
      destruct (search_sound _ _ _ _ _ _ P TM I SE) as [I1 G].
    - injection E as <- <-. split; auto. intros ? [= <-]. exists q, k. split; [now left | auto].
    - destruct (IH _ _ _ ltac:(intros ? ? X; apply OK; now right) I1 E) as [A B]. split; auto.
      intros nm En. destruct (B _ En) as (q' & k' & C & D). exists q', k'. split; [now right | auto].
    - injection E as <- <-. split; [auto | congruence].
  Qed.
  Variable root : item.
  Definition okp (l : list (rpath * nat)) : Prop := forall q k, In (q, k) l -> pub_module r root q /\ top_module q = Some k.
  Lemma pub_place q : place r [root] -> pub_module r root q -> place r q.
  Proof. intros P Q. induction Q; auto. eapply place_in; eauto. Qed.
  Lemma below_in l q k : In (q, k) (below r l) <->
    exists q' m it, In (q', m) l /\ In it (items_of r m) /\ i_kind it = KModule k /\ i_vis it = Public /\ q = it :: q'.
  Proof.
    unfold below, inside. rewrite in_flat_map. split.
    - intros ([q' m] & A & B). cbn [fst snd] in B. apply in_flat_map in B as (it & C & D).
      destruct (i_kind it) as [k'| | | | | | | | | | | | | |] eqn:K; try (now destruct D).
      destruct (is_pub it) eqn:PB; [|destruct D]. destruct D as [D | []]. injection D as <- <-.
      exists q', m, it. repeat split; auto. now apply is_pub_eq.
    - intros (q' & m & it & A & B & C & D & ->). exists (q', m). split; auto. cbn [fst snd]. apply in_flat_map.
      exists it. split; auto. rewrite C, (pub_is _ D). now left.
  Qed.
  Lemma below_okp l : okp l -> okp (below r l).
  Proof.
    intros OK q k I. apply below_in in I as (q' & m & it & A & B & C & D & ->).
    destruct (OK _ _ A) as [E F]. split; [eapply pm_child; eauto|]. cbn. now rewrite C.
  Qed.
  Lemma levels_sound d : place r [root] -> forall b l s o s', okp l -> J (fst s) ->
    levels r look t n b d l s = Some (o, s') ->
    J (fst s') /\ forall nm, o = Found (Some nm) -> exists q, pub_module r root q /\ good q nm.
  Proof.
    intros PR b. induction b as [| b IH]; intros l s o s' OK I E; cbn [levels] in E; destruct l as [| e l]; try discriminate.
    { injection E as <- <-. split; [auto | congruence]. }
    { injection E as <- <-. split; [auto | congruence]. }
    unfold bind in E. set (l' := e :: l) in *. clearbody l'.
    assert (OL : okl l'). { intros q k X. destruct (OK _ _ X). split; auto. eapply pub_place; eauto. }
    destruct (level r look t n d l' s) as [[[[nm|]|e'] s1]|] eqn:LE; try discriminate;
      destruct (level_sound _ _ _ _ _ OL I LE) as [I1 G].
    - injection E as <- <-. split; auto. intros ? [= <-]. destruct (G _ eq_refl) as (q & k & A & B).
      exists q. split; auto. apply (OK _ _ A).
    - exact (IH _ _ _ _ (below_okp _ OK) I1 E).
    - injection E as <- <-. split; [auto | congruence].
  Qed.

  (** *** Nothing is missed *)
  Hypothesis X : forall self p s o s', place r self -> given r self p -> J s -> look self p n s = Some (o, s') ->
    (o = Fail NotFound /\ forall q, ~ R self p q) \/ (exists q, o = Found q /\ R self p q /\ forall q', R self p q' -> q' = q).
  Hypothesis GM : forall self m it p q, place r self -> top_module self = Some m -> In it (items_of r m) ->
    i_vis it = Public -> i_kind it = KGlob p -> R self p q -> exists k, top_module q = Some k.
  Hypothesis ID : ident t <> None.

  Definition passed (q : rpath) (V : list nat) (it : item) : Prop :=
    is_item it t = false /\
    (i_vis it = Public -> forall p i, R q p i ->
      (i_kind it = KUse p -> ~ is_path_to t i) /\
      (i_kind it = KGlob p -> exists k, top_module i = Some k /\ In k V)).
  Definition done (V : list nat) (m : nat) : Prop :=
    forall q it, place r q -> top_module q = Some m -> In it (items_of r m) -> passed q V it.
  Lemma passed_mono q V V' it : incl V V' -> passed q V it -> passed q V' it.
  Proof.
    intros IV [A B]. split; auto. intros PB p i RI. destruct (B PB _ _ RI) as [C D]. split; auto.
    intro K. destruct (D K) as (k & E & F). eauto.
  Qed.
  Lemma done_mono V V' m : incl V V' -> done V m -> done V' m.
  Proof. intros IV D q it A B C. eapply passed_mono; eauto. Qed.
  Definition grown (V V' : list nat) (o : out (option names)) : Prop :=
    incl V V' /\ (forall e, o <> Fail e) /\ (o = Found None -> forall k, In k V' -> In k V \/ done V' k).
  Lemma grown_trans V V1 V2 o : grown V V1 (Found None) -> grown V1 V2 o -> grown V V2 o.
  Proof.
    intros (A & B & C) (D & E & F). split; [eapply incl_tran; eauto|]. split; auto.
    intros Eo k Ik. destruct (F Eo k Ik) as [G | G]; auto. destruct (C eq_refl k G); auto. right. eapply done_mono; eauto.
  Qed.
  Lemma grown_refl V o : (forall e, o <> Fail e) -> grown V V o.
  Proof. intros. split; [apply incl_refl|]. split; auto. Qed.

  Hypothesis TR : tree r.
  Lemma scan_complete again mp m : place r mp -> top_module mp = Some m ->
    (forall q k s o s', place r q -> top_module q = Some k -> J (fst s) -> again q k s = Some (o, s') ->
       J (fst s') /\ grown (snd s) (snd s') o /\ (o = Found None -> In k (snd s'))) ->
    forall its s o s', incl its (items_of r m) -> J (fst s) -> scan look t n again mp its s = Some (o, s') ->
    J (fst s') /\ grown (snd s) (snd s') o /\ (o = Found None -> forall it, In it its -> passed mp (snd s') it).
  Proof.
    intros P TM AG its. induction its as [| it its IH]; intros s o s' IN I E; cbn [scan] in E.
    { injection E as <- <-. split; auto. split; [apply grown_refl; congruence|]. intros _ ? []. }
    assert (INi : In it (items_of r m)) by (apply IN; now left).
    assert (IN' : incl its (items_of r m)) by (intros ? ?; apply IN; now right).
    destruct (is_item it t) eqn:IS.
    { destruct (ident t) as [x|] eqn:IDx; [|congruence]. injection E as <- <-. split; auto.
      split; [apply grown_refl; congruence | congruence]. }
    assert (STEP : forall s1, J (fst s1) -> grown (snd s) (snd s1) (Found None) -> passed mp (snd s1) it ->
      scan look t n again mp its s1 = Some (o, s') ->
      J (fst s') /\ grown (snd s) (snd s') o /\ (o = Found None -> forall i, In i (it :: its) -> passed mp (snd s') i)).
    { intros s1 I1 G1 P1 E1. destruct (IH _ _ _ IN' I1 E1) as (A & B & C). split; auto.
      split; [eapply grown_trans; eauto|]. intros Eo i [<- | Ii]; [|now apply C].
      eapply passed_mono; [|exact P1]. apply B. }
    assert (G0 : grown (snd s) (snd s) (Found None)) by (apply grown_refl; congruence).
    assert (SKIP : (forall p, i_kind it <> KUse p) -> (forall p, i_kind it <> KGlob p) -> passed mp (snd s) it).
    { intros A B. split; auto. intros _ p i _. split; intro C; [now apply A in C | now apply B in C]. }
    assert (PRIV : is_pub it = false -> passed mp (snd s) it).
    { intros A. split; auto. intros C. apply pub_is in C. congruence. }
    destruct (i_kind it) as [| | | | | | | | | p | p | | | |] eqn:K;
      try (refine (STEP s I G0 _ E); apply SKIP; congruence).
    - destruct (is_pub it) eqn:PB; [|refine (STEP s I G0 _ E); auto]. apply is_pub_eq in PB.
      assert (G : given r mp p) by (exists m, it; auto). unfold looks in E.
      destruct (look mp p n (fst s)) as [[o1 s1]|] eqn:L; [|discriminate].
      destruct (H _ _ _ _ _ P G I L) as [I1 _].
      destruct (X _ _ _ _ _ P G I L) as [[-> NR] | (q & -> & RQ & UQ)].
      + refine (STEP (s1, snd s) I1 G0 _ E). split; auto. intros _ p' i RI. split; [|congruence].
        intro C. exfalso. assert (p' = p) as -> by congruence. now apply NR in RI.
      + destruct q as [| i q]; [destruct (H _ _ _ _ _ P G I L) as [_ Q]; destruct (Q _ eq_refl) as [Q1 _]; now apply place_not_nil in Q1|].
        destruct (is_item i t) eqn:IT.
        * destruct (ident t) as [x|] eqn:IDx; [|congruence]. injection E as <- <-. split; auto.
          split; [apply grown_refl; congruence | congruence].
        * refine (STEP (s1, snd s) I1 G0 _ E). split; auto. intros _ p' i' RI. split; [|congruence].
          intros C (a & w & -> & E1). assert (p' = p) as -> by congruence. apply UQ in RI. injection RI as -> ->. congruence.
    - destruct (is_pub it) eqn:PB; [|refine (STEP s I G0 _ E); auto]. apply is_pub_eq in PB.
      assert (G : given r mp p) by (exists m, it; auto). unfold looks in E.
      destruct (look mp p n (fst s)) as [[o1 s1]|] eqn:L; [|discriminate].
      destruct (H _ _ _ _ _ P G I L) as [I1 HQ].
      destruct (X _ _ _ _ _ P G I L) as [[-> NR] | (q & -> & RQ & UQ)].
      + refine (STEP (s1, snd s) I1 G0 _ E). split; auto. intros _ p' i RI. split; [congruence|].
        intro C. exfalso. assert (p' = p) as -> by congruence. now apply NR in RI.
      + destruct (HQ _ eq_refl) as [Q1 _]. destruct (GM _ _ _ _ _ P TM INi PB K RQ) as (k & TQ). rewrite TQ in E.
        destruct (again q k (s1, snd s)) as [[o2 s2]|] eqn:A; [|discriminate].
        destruct (AG q k (s1, snd s) _ _ Q1 TQ I1 A) as (I2 & G2 & G3). cbn [snd] in G2.
        destruct o2 as [[nm|]|e].
        * injection E as <- <-. split; auto. split; [|congruence]. destruct G2 as (G4 & _ & _).
          split; auto. split; congruence.
        * refine (STEP s2 I2 G2 _ E). split; auto. intros _ p' i RI. split; [congruence|].
          intro C. assert (p' = p) as -> by congruence. apply UQ in RI. subst i. eauto.
        * exfalso. destruct G2 as (_ & G4 & _). now apply (G4 e).
  Qed.
  Lemma search_complete d : forall q k s o s', place r q -> top_module q = Some k -> J (fst s) ->
    search r look t n d q k s = Some (o, s') ->
    J (fst s') /\ grown (snd s) (snd s') o /\ (o = Found None -> In k (snd s')).
  Proof.
    induction d as [| d IH]; intros q k s o s' P TM I E; cbn [search] in E; [discriminate|].
    destruct (existsb (Nat.eqb k) (snd s)) eqn:EX.
    - injection E as <- <-. split; auto. split; [apply grown_refl; congruence|]. intros _.
      apply existsb_exists in EX as (k' & A & B). apply Nat.eqb_eq in B. now subst.
    - destruct (scan_complete _ _ _ P TM IH (items_of r k) (fst s, k :: snd s) o s' (incl_refl _) I E) as (A & B & C).
      cbn [snd] in B. destruct B as (B1 & B2 & B3). split; auto.
      assert (Ik : In k (snd s')) by (apply B1; now left).
      split; [|auto]. split; [intros ? ?; apply B1; now right|]. split; auto.
      intros Eo k' Ik'. destruct (B3 Eo k' Ik') as [[<- | G] | G]; auto. right.
      intros q' it P' TM' Ii. assert (q' = q) as -> by (eapply place_key; eauto). now apply C.
  Qed.
  Lemma level_complete d : forall l s o s', okl l -> J (fst s) -> level r look t n d l s = Some (o, s') ->
    J (fst s') /\ grown (snd s) (snd s') o /\ (o = Found None -> forall q k, In (q, k) l -> In k (snd s')).
  Proof.
    induction l as [| [q k] l IH]; intros s o s' OK I E; cbn [level] in E.
    { injection E as <- <-. split; auto. split; [apply grown_refl; congruence|]. intros _ ? ? []. }
    unfold bind in E. destruct (OK q k) as [P TM]; [now left|].
    destruct (search r look t n d q k s) as [[o1 s1]|] eqn:SE; [|discriminate].
    destruct (search_complete _ _ _ _ _ _ P TM I SE) as (I1 & G & Ik).
    destruct o1 as [[nm|]|e].
    - injection E as <- <-. split; auto. split; [auto | congruence].
    - destruct (IH _ _ _ ltac:(intros ? ? Y; apply OK; now right) I1 E) as (A & B & C). split; auto.
      split; [eapply grown_trans; eauto|]. intros Eo q' k' [Y | Y]; [|eapply C; eauto].
      injection Y as <- <-. apply B. auto.
    - exfalso. destruct G as (_ & G4 & _). now apply (G4 e).
  Qed.
  Definition nothing (q : rpath) : Prop := forall x i, offers r R R q x i -> ~ is_path_to t i.
  Lemma closed_nothing V : (forall k, In k V -> done V k) -> (forall q p i, place r q -> given r q p -> R q p i -> place r i) ->
    forall q k, In k V -> place r q -> top_module q = Some k -> nothing q.
  Proof.
    intros CL PL q k Ik P TM x i O1. revert k Ik P TM.
    induction O1 as [q m it x TM1 Ii Ix | q m it p i TM1 Ii K PB RI | q m it p q' k' x i TM1 Ii K PB RI TQ O1 IH]; intros k Ik P TM;
      assert (m = k) by congruence; subst m.
    - intros (a & w & [= <- <-] & E). destruct (CL _ Ik _ _ P TM Ii) as [A _]. congruence.
    - destruct (CL _ Ik _ _ P TM Ii) as [_ A]. destruct (A PB _ _ RI) as [B _]. auto.
    - destruct (CL _ Ik _ _ P TM Ii) as [_ A]. destruct (A PB _ _ RI) as [_ B].
      destruct (B K) as (k2 & C & D). eapply IH; eauto. eapply PL; eauto. exists k, it. auto.
  Qed.
  Hypothesis PL : forall q p i, place r q -> given r q p -> R q p i -> place r i.
  Definition outcome (o : out (option names)) : Prop :=
    (o = Found None /\ forall q, pub_module r root q -> nothing q) \/
    (exists nm q, o = Found (Some nm) /\ pub_module r root q /\ good q nm /\
       forall q', pub_module r root q' -> (length q' < length q)%nat -> nothing q').
  Lemma levels_complete d : place r [root] -> forall b j l s o s', okp l ->
    (forall q k, In (q, k) l -> length q = S j) ->
    (forall q k, pub_module r root q -> top_module q = Some k -> length q = S j -> In (q, k) l) ->
    (forall k, In k (snd s) -> done (snd s) k) ->
    (forall q k, pub_module r root q -> top_module q = Some k -> (length q <= j)%nat -> In k (snd s)) ->
    J (fst s) -> levels r look t n b d l s = Some (o, s') -> outcome o.
  Proof.
    assert (TOP : forall q, pub_module r root q -> exists k, top_module q = Some k).
    { intros q Q. destruct Q as [m K | q m it k Q A B C D]; cbn; [rewrite K | rewrite C]; eauto. }
    intros PR b. induction b as [| b IH]; intros j l s o s' OK LN ALL DN PM I E; cbn [levels] in E; destruct l as [| e l]; try discriminate.
    1,2: injection E as <- <-; left; split; auto; intros q Q; destruct (TOP _ Q) as [k TM];
      apply (closed_nothing _ DN PL q k); auto; [|eapply pub_place; eauto];
      apply (PM q k); auto;
      assert (NO : forall q, pub_module r root q -> (length q <= j)%nat); [|auto];
      clear -ALL TOP; intros q Q; induction Q as [m K | q m it k Q IH A B C D]; cbn [length] in *.
    1,3: destruct j; [destruct (ALL [root] m); cbn; auto; [eapply pm_root; eauto | now rewrite K] | lia].
    1,2: destruct (Nat.eq_dec (length q) j) as [EQ|]; [|lia];
      destruct (ALL (it :: q) k); cbn; [eapply pm_child; eauto | now rewrite C | lia].
    unfold bind in E. set (l' := e :: l) in *. clearbody l'.
    assert (OL : okl l'). { intros q k Y. destruct (OK _ _ Y). split; auto. eapply pub_place; eauto. }
    destruct (level r look t n d l' s) as [[o1 s1]|] eqn:LE; [|discriminate].
    destruct (level_sound _ _ _ _ _ OL I LE) as [I1 GS]. destruct (level_complete _ _ _ _ _ OL I LE) as (_ & G & GI).
    destruct o1 as [[nm|]|e'].
    - injection E as <- <-. destruct (GS _ eq_refl) as (q & k & A & B). right. exists nm, q. split; auto.
      destruct (OK _ _ A) as [Q TM]. split; auto. split; auto. intros q' Q' L. rewrite (LN _ _ A) in L.
      destruct (TOP _ Q') as [k' TM']. apply (closed_nothing _ DN PL q' k'); auto; [|eapply pub_place; eauto].
      apply (PM q' k'); auto. lia.
    - apply (IH (S j) (below r l') s1 o s'); auto.
      + now apply below_okp.
      + intros q k Y. apply below_in in Y as (q' & m & it & A & _ & _ & _ & ->). cbn. now rewrite (LN _ _ A).
      + intros q k Q TM L. destruct Q as [m K | q m it k' Q A B C D]; [cbn in L; lia|].
        apply below_in. exists q, m, it. cbn in TM. rewrite C in TM. injection TM as <-. repeat split; auto.
      + intros k Ik. destruct G as (G1 & _ & G3). destruct (G3 eq_refl k Ik) as [G4|G4]; auto. eapply done_mono; eauto.
      + intros q k Q TM L. destruct (Nat.eq_dec (length q) (S j)) as [EQ | NE].
        * eapply (GI eq_refl); eauto.
        * destruct G as (G1 & _ & _). apply G1. eapply PM; eauto. lia.
    - exfalso. destruct G as (_ & G4 & _). now apply (G4 e').
  Qed.
End Generic.

(** ** Searches end and keep caches good *)
Section Keep.
  Variable r : ir.
  Variable T : Type.
  Variable look : rpath -> path -> ns -> M T rpath.
  Variable t : item.
  Variable n : ns.
  Variable J : T -> Prop.
  Hypothesis H : forall self p s o s', place r self -> given r self p -> J s -> look self p n s = Some (o, s') ->
    J s' /\ (forall q, o = Found q -> place r q).
  Lemma scan_keeps again mp m : place r mp -> top_module mp = Some m ->
    (forall q k s o s', place r q -> top_module q = Some k -> J (fst s) -> again q k s = Some (o, s') -> J (fst s')) ->
    forall its s o s', incl its (items_of r m) -> J (fst s) ->
    scan look t n again mp its s = Some (o, s') -> J (fst s').
  Proof.
    intros P TM AG its. induction its as [| it its IH]; intros s o s' IN I E; cbn [scan] in E.
    { injection E as <- <-. auto. }
    assert (INi : In it (items_of r m)) by (apply IN; now left).
    assert (IN' : incl its (items_of r m)) by (intros ? ?; apply IN; now right).
    destruct (is_item it t) eqn:IS.
    { destruct (ident t) as [x|] eqn:ID; injection E as <- <-; auto. }
    destruct (i_kind it) as [| | | | | | | | | p | p | | | |] eqn:K; try exact (IH s _ _ IN' I E).
    - destruct (is_pub it) eqn:PB; [|exact (IH s _ _ IN' I E)]. apply is_pub_eq in PB.
      assert (G : given r mp p) by (exists m, it; auto). unfold looks in E.
      destruct (look mp p n (fst s)) as [[[q|e] s1]|] eqn:L; try discriminate;
        destruct (H _ _ _ _ _ P G I L) as [I1 _].
      + destruct q as [| i q]; [injection E as <- <-; auto|].
        destruct (is_item i t); [|exact (IH (s1, snd s) _ _ IN' I1 E)].
        destruct (ident t) as [x|]; injection E as <- <-; auto.
      + destruct e; try (injection E as <- <-; auto; fail). exact (IH (s1, snd s) _ _ IN' I1 E).
    - destruct (is_pub it) eqn:PB; [|exact (IH s _ _ IN' I E)]. apply is_pub_eq in PB.
      assert (G : given r mp p) by (exists m, it; auto). unfold looks in E.
      destruct (look mp p n (fst s)) as [[[q|e] s1]|] eqn:L; try discriminate;
        destruct (H _ _ _ _ _ P G I L) as [I1 Q].
      + specialize (Q _ eq_refl). destruct (top_module q) as [k|] eqn:TQ; [|injection E as <- <-; auto].
        destruct (again q k (s1, snd s)) as [[[[nm|]|e] s2]|] eqn:A; try discriminate;
          pose proof (AG q k (s1, snd s) _ _ Q TQ I1 A) as I2; try (injection E as <- <-; auto; fail).
        exact (IH s2 _ _ IN' I2 E).
      + destruct e; try (injection E as <- <-; auto; fail). exact (IH (s1, snd s) _ _ IN' I1 E).
  Qed.
  Lemma search_keeps d : forall q k s o s', place r q -> top_module q = Some k -> J (fst s) ->
    search r look t n d q k s = Some (o, s') -> J (fst s').
  Proof.
    induction d as [| d IH]; intros q k s o s' P TM I E; cbn [search] in E; [discriminate|].
    destruct (existsb (Nat.eqb k) (snd s)).
    - injection E as <- <-. auto.
    - exact (scan_keeps _ _ _ P TM IH (items_of r k) (fst s, k :: snd s) _ _ (incl_refl _) I E).
  Qed.
  Lemma level_keeps d : forall l s o s', okl r l -> J (fst s) -> level r look t n d l s = Some (o, s') -> J (fst s').
  Proof.
    induction l as [| [q k] l IH]; intros s o s' OK I E; cbn [level] in E.
    { injection E as <- <-. auto. }
    unfold bind in E. destruct (OK q k) as [P TM]; [now left|].
    destruct (search r look t n d q k s) as [[[[nm|]|e] s1]|] eqn:SE; try discriminate;
      pose proof (search_keeps _ _ _ _ _ _ P TM I SE) as I1; try (injection E as <- <-; auto; fail).
    exact (IH _ _ _ ltac:(intros ? ? Y; apply OK; now right) I1 E).
  Qed.
  Variable root : item.
  Lemma levels_keeps d : place r [root] -> forall b l s o s', okp r root l -> J (fst s) ->
    levels r look t n b d l s = Some (o, s') -> J (fst s').
  Proof.
    intros PR b. induction b as [| b IH]; intros l s o s' OK I E; cbn [levels] in E; destruct l as [| e l]; try discriminate;
      try (injection E as <- <-; auto; fail).
    unfold bind in E. set (l' := e :: l) in *. clearbody l'.
    assert (OL : okl r l'). { intros q k Y. destruct (OK _ _ Y). split; auto. eapply pub_place; eauto. }
    destruct (level r look t n d l' s) as [[[[nm|]|e'] s1]|] eqn:LE; try discriminate;
      pose proof (level_keeps _ _ _ _ _ OL I LE) as I1; try (injection E as <- <-; auto; fail).
    exact (IH _ _ _ _ (below_okp _ _ _ OK) I1 E).
  Qed.

  (** *** Ending *)
  Hypothesis TOT : forall self p s, given r self p -> J s -> exists o s', look self p n s = Some (o, s').
  Variable K : list nat.
  Hypothesis INK : forall q k, place r q -> top_module q = Some k -> In k K.
  Definition room (V V' : list nat) : Prop := NoDup V' /\ incl V' K /\ (length V <= length V')%nat.
  Lemma scan_total d again mp m : place r mp -> top_module mp = Some m ->
    (forall q k s o s', place r q -> top_module q = Some k -> J (fst s) -> again q k s = Some (o, s') -> J (fst s')) ->
    (forall q k s, place r q -> top_module q = Some k -> J (fst s) -> NoDup (snd s) -> incl (snd s) K ->
       (length K < d + length (snd s))%nat ->
       exists o s', again q k s = Some (o, s') /\ room (snd s) (snd s')) ->
    forall its s, incl its (items_of r m) -> J (fst s) -> NoDup (snd s) -> incl (snd s) K ->
      (length K < d + length (snd s))%nat ->
      exists o s', scan look t n again mp its s = Some (o, s') /\ room (snd s) (snd s').
  Proof.
    intros P TM KE AG its. induction its as [| it its IH]; intros s IN I ND IK LE; cbn [scan].
    { eexists _, _. split; [reflexivity|]. repeat split; auto. }
    assert (INi : In it (items_of r m)) by (apply IN; now left).
    assert (IN' : incl its (items_of r m)) by (intros ? ?; apply IN; now right).
    assert (STOP : forall o (s1 : st T), room (snd s) (snd s1) ->
      exists o' s', Some (o : out (option names), s1) = Some (o', s') /\ room (snd s) (snd (s' : st T))) by (intros; eauto).
    assert (R0 : room (snd s) (snd s)) by (repeat split; auto).
    destruct (is_item it t) eqn:IS; [destruct (ident t); unfold ret, fail; auto|].
    destruct (i_kind it) as [| | | | | | | | | p | p | | | |] eqn:KI; try exact (IH s IN' I ND IK LE).
    - destruct (is_pub it) eqn:PB; [|exact (IH s IN' I ND IK LE)]. apply is_pub_eq in PB.
      assert (G : given r mp p) by (exists m, it; auto). unfold looks.
      destruct (TOT mp p (fst s) G I) as (o1 & s1 & L). rewrite L. destruct (H _ _ _ _ _ P G I L) as [I1 _].
      destruct o1 as [[| i q]|e].
      + apply STOP. exact R0.
      + destruct (is_item i t); [destruct (ident t); apply STOP; exact R0|]. exact (IH (s1, snd s) IN' I1 ND IK LE).
      + destruct e; try (apply STOP; exact R0). exact (IH (s1, snd s) IN' I1 ND IK LE).
    - destruct (is_pub it) eqn:PB; [|exact (IH s IN' I ND IK LE)]. apply is_pub_eq in PB.
      assert (G : given r mp p) by (exists m, it; auto). unfold looks.
      destruct (TOT mp p (fst s) G I) as (o1 & s1 & L). rewrite L. destruct (H _ _ _ _ _ P G I L) as [I1 Q].
      destruct o1 as [q|e].
      + specialize (Q _ eq_refl). destruct (top_module q) as [k|] eqn:TQ; [|apply STOP; exact R0].
        destruct (AG q k (s1, snd s) Q TQ I1 ND IK LE) as (o2 & s2 & A & B1 & B2 & B3). rewrite A.
        pose proof (KE q k (s1, snd s) _ _ Q TQ I1 A) as I2. cbn [snd] in B3.
        destruct o2 as [[nm|]|e]; try (apply STOP; repeat split; auto; fail).
        destruct (IH s2 IN' I2 B1 B2) as (o3 & s3 & C & D1 & D2 & D3); [lia|].
        exists o3, s3. split; auto. repeat split; auto. lia.
      + destruct e; try (apply STOP; exact R0). exact (IH (s1, snd s) IN' I1 ND IK LE).
  Qed.
  Lemma search_total d : forall q k s, place r q -> top_module q = Some k -> J (fst s) -> NoDup (snd s) -> incl (snd s) K ->
    (length K < d + length (snd s))%nat ->
    exists o s', search r look t n d q k s = Some (o, s') /\ room (snd s) (snd s').
  Proof.
    induction d as [| d IH]; intros q k s P TM I ND IK LE; cbn [search].
    { pose proof (NoDup_incl_length ND IK). lia. }
    destruct (existsb (Nat.eqb k) (snd s)) eqn:EX.
    { eexists _, _. split; [reflexivity|]. repeat split; auto. }
    assert (NI : ~ In k (snd s)).
    { intro Y. assert (existsb (Nat.eqb k) (snd s) = true); [|congruence]. apply existsb_exists. exists k. split; auto.
      apply Nat.eqb_refl. }
    destruct (scan_total d _ _ _ P TM (search_keeps d) IH (items_of r k) (fst s, k :: snd s) (incl_refl _) I)
      as (o & s' & A & B1 & B2 & B3); cbn [snd length] in *.
    - now constructor.
    - intros a [<- | Y]; [eapply INK; eauto | auto].
    - lia.
    - exists o, s'. split; auto. repeat split; auto. lia.
  Qed.
  Lemma level_total d : forall l s, okl r l -> J (fst s) -> NoDup (snd s) -> incl (snd s) K ->
    (length K < d + length (snd s))%nat ->
    exists o s', level r look t n d l s = Some (o, s') /\ room (snd s) (snd s').
  Proof.
    induction l as [| [q k] l IH]; intros s OK I ND IK LE; cbn [level].
    { eexists _, _. split; [reflexivity|]. repeat split; auto. }
    destruct (OK q k) as [P TM]; [now left|].
    destruct (search_total d q k s P TM I ND IK LE) as (o1 & s1 & A & B1 & B2 & B3). unfold bind. rewrite A.
    pose proof (search_keeps _ _ _ _ _ _ P TM I A) as I1.
    destruct o1 as [[nm|]|e]; try (eexists _, _; split; [reflexivity|]; repeat split; auto; fail).
    destruct (IH s1) as (o2 & s2 & C & D1 & D2 & D3); auto; [intros ? ? Y; apply OK; now right | lia|].
    exists o2, s2. split; auto. repeat split; auto. lia.
  Qed.
  Hypothesis SHORT : forall q, pub_module r root q -> (length q <= length K)%nat.
  Lemma levels_total d : place r [root] -> (length K < d)%nat -> forall b j l s, okp r root l ->
    (forall q k, In (q, k) l -> length q = S j) -> (length K <= b + j)%nat ->
    J (fst s) -> NoDup (snd s) -> incl (snd s) K ->
    exists o s', levels r look t n b d l s = Some (o, s').
  Proof.
    intros PR LD b. induction b as [| b IH]; intros j l s OK LN LB I ND IK; cbn [levels]; destruct l as [| e l];
      try (unfold ret; eauto; fail).
    { exfalso. destruct e as [q k]. destruct (OK q k) as [Q _]; [now left|]. specialize (LN q k ltac:(now left)).
      specialize (SHORT q Q). lia. }
    set (l' := e :: l) in *. clearbody l'.
    assert (OL : okl r l'). { intros q k Y. destruct (OK _ _ Y). split; auto. eapply pub_place; eauto. }
    destruct (level_total d l' s OL I ND IK) as (o1 & s1 & A & B1 & B2 & B3); [lia|]. unfold bind. rewrite A.
    pose proof (level_keeps _ _ _ _ _ OL I A) as I1.
    destruct o1 as [[nm|]|e']; try (unfold ret; eauto; fail).
    apply (IH (S j)); auto.
    - now apply below_okp.
    - intros q k Y. apply below_in in Y as (q' & m & it & C & _ & _ & _ & ->). cbn. now rewrite (LN _ _ C).
    - lia.
  Qed.
End Keep.

(** ** The searches of a run *)
Definition ready (r : ir) (c : cache) : Prop :=
  sound_cache r c /\ (forall E, exact_cache r E c) /\ c_busy c = [].
Lemma lookup_ready r d self p n c o c' : tree r -> place r self -> ready r c -> lookup r d self p n c = Some (o, c') ->
  ready r c' /\ (forall q, o = Found q -> place r q /\ may_refer r self p n q) /\
  (forall i, refers r self p n i -> o = answer i).
Proof.
  intros T P (SC & EC & BU) L. destruct (lookup_sound _ _ _ _ _ _ _ _ T P SC L) as [SC1 FD].
  assert (A : forall E, exact_cache r E c' /\ c_busy c' = []).
  { intro E. destruct (lookup_exact r E _ _ _ _ _ _ _ T P SC (EC E) BU L) as [B _]. exact B. }
  repeat split; auto; try (now apply FD); [intro E; apply A | apply (A O)|].
  intros i RI. destruct (refers_found _ _ _ _ _ RI P) as (E & RE).
  destruct (lookup_exact r E _ _ _ _ _ _ _ T P SC (EC E) BU L) as [_ B]. eauto.
Qed.
Lemma ready_fresh r : ready r fresh.
Proof. split; [apply sound_fresh|]. split; auto. intros E ? ? ? ? ? X. discriminate. Qed.
Lemma public_of_keeps r d b self c o c' : tree r -> place r self -> ready r c -> public_of r d b self c = Some (o, c') ->
  ready r c'.
Proof.
  intros TR P RD E. unfold public_of in E. destruct self as [| t [| a up]]; try (injection E as <- <-; auto; fail).
  destruct (the_root (a :: up)) as [root|] eqn:RT; [|injection E as <- <-; auto].
  destruct (i_kind root) as [m| | | | | | | | | | | | | |] eqn:K; try (injection E as <- <-; auto; fail).
  destruct (levels r (lookup r d) t (ns_for t) b d [([root], m)] (c, [])) as [[o1 s1]|] eqn:L; [|discriminate].
  injection E as <- <-.
  assert (PR : place r [root]) by (eapply place_root_of; [eapply place_tail; [exact P | discriminate] | exact RT]).
  refine (levels_keeps r _ (lookup r d) t (ns_for t) (ready r) _ root d PR b _ _ _ _ _ _ L).
  - intros self p s o s' PS _ RS LS. destruct (lookup_ready _ _ _ _ _ _ _ _ TR PS RS LS) as (A & B & _). split; auto.
    intros q Eq. now destruct (B q Eq).
  - intros q k [Y | []]. injection Y as <- <-. split; [eapply pm_root; eauto | cbn; now rewrite K].
  - exact RD.
Qed.
Lemma reached_ready r d b c : tree r -> reached r d b c -> ready r (p_cache c).
Proof.
  intros TR RC. induction RC as [| c self p n o c' RC IH P L | c self o c' RC IH P HN E].
  - apply ready_fresh.
  - now destruct (lookup_ready _ _ _ _ _ _ _ _ TR P IH L).
  - unfold public in E. destruct (p_find (p_known c) (path_of self)); [now injection E as <- <-|].
    destruct (public_of r d b self (p_cache c)) as [[o1 c1]|] eqn:PO; [|discriminate]. injection E as <- <-.
    cbn. eapply public_of_keeps; eauto.
Qed.
(** Public modules are no deeper than there are modules. *)
Lemma module_number r q k : place r q -> top_module q = Some k -> In k (map fst (module_entries r)).
Proof.
  intros P TM. destruct (top_inv _ _ TM) as (it & s & -> & K). apply in_map_iff.
  destruct (place_module_inv _ _ _ _ P K) as [(x & I & _) | (p & m & up & -> & _ & KP & I)].
  - exists (k, (None, it)). split; auto. eapply entry_root; eauto.
  - exists (k, (Some m, it)). split; auto. eapply entry_item; eauto.
Qed.
Definition number (it : item) : nat := match i_kind it with KModule k => k | _ => O end.
Lemma pub_numbers r root : tree r -> place r [root] -> forall q, pub_module r root q ->
  NoDup (map number q) /\ incl (map number q) (map fst (module_entries r)) /\
  (forall k, In k (map number q) -> exists p a, place r p /\ top_module p = Some k /\ q = a ++ p).
Proof.
  intros TR PR q Q. induction Q as [m K | q m it k Q IH A B C D].
  - cbn. unfold number. rewrite K. assert (TM : top_module [root] = Some m) by (cbn; now rewrite K).
    split; [constructor; [intros [] | constructor]|]. split.
    + intros a [<- | []]. exact (module_number _ _ _ PR TM).
    + intros a [<- | []]. exists [root], []. auto.
  - destruct IH as (N & I & W). assert (PQ : place r q) by (eapply pub_place; eauto).
    assert (P : place r (it :: q)) by (eapply place_in; eauto).
    assert (TM : top_module (it :: q) = Some k) by (cbn; now rewrite C).
    assert (NK : number it = k) by (unfold number; now rewrite C). cbn [map]. rewrite NK. split; [constructor; auto|].
    + intro Y. destruct (W _ Y) as (p & a & PP & TP & ->).
      pose proof (place_key _ _ _ _ TR P PP TM TP) as EQ. apply (f_equal (@length item)) in EQ. cbn in EQ.
      rewrite app_length in EQ. lia.
    + split.
      * intros x [<- | Y]; [exact (module_number _ _ _ P TM) | auto].
      * intros x [<- | Y]; [exists (it :: q), []; auto|]. destruct (W _ Y) as (p & a & PP & TP & ->).
        exists p, (it :: a). auto.
Qed.
Lemma pub_short r root q : tree r -> place r [root] -> pub_module r root q ->
  (length q <= length (map fst (module_entries r)))%nat.
Proof.
  intros TR PR Q. destruct (pub_numbers r root TR PR q Q) as (A & B & _).
  pose proof (NoDup_incl_length A B) as L. now rewrite map_length in L.
Qed.

Lemma given_names r q p : given r q p -> incl (segs p) (all_names r []).
Proof.
  intros (m & it & TM & I & _ & K) y Iy. apply items_in in I as (its & A & B). unfold all_names. apply in_or_app. left.
  apply in_flat_map. exists (m, its). split; auto. cbn [snd]. apply in_flat_map. exists it. split; auto.
  unfold path_names. destruct K as [-> | ->]; auto.
Qed.
Lemma lookup_total r d self p n c : (depth_bound r [] <= d)%nat -> given r self p -> ready r c ->
  exists o c', lookup r d self p n c = Some (o, c').
Proof.
  intros L G (_ & _ & BU). set (U := all_names r []).
  assert (IU : forall m it, In it (items_of r m) -> incl (Path_Claims.path_names it) U).
  { intros m it I y Iy. apply items_in in I as (its & A & B). unfold U, all_names. apply in_or_app. left.
    apply in_flat_map. exists (m, its). split; auto. cbn [snd]. apply in_flat_map. eauto. }
  assert (LD : (length (all_keys r U) + 2 <= d)%nat).
  { rewrite all_keys_length. unfold depth_bound in L. fold U in L. lia. }
  destruct (resolve_total r cache (child r d) (fun s => c_busy s = []) U) with (self := self) (p := p) (n := n) (s := c)
      as (o & c1 & E & B1); auto.
  - intros self2 x2 n2 s X2 B2. destruct (child_total r U IU d self2 x2 n2 s X2) as (o & c' & E & B3).
    + rewrite B2. constructor.
    + rewrite B2. intros ? [].
    + lia.
    + exists o, c'. split; auto. congruence.
  - now apply given_names with (q := self).
  - unfold lookup. eauto.
Qed.
Lemma pub_ends_proof : pub_ends_statement.
Proof.
  intros r d b self c TR P LD LM LB RC. pose proof (reached_ready _ _ _ _ TR RC) as RD. unfold public.
  destruct (p_find (p_known c) (path_of self)); [eauto|].
  assert (A : exists o c', public_of r d b self (p_cache c) = Some (o, c')); [|destruct A as (o & c' & ->); eauto].
  unfold public_of. destruct self as [| t [| a up]]; [eauto | eauto|].
  destruct (the_root (a :: up)) as [root|] eqn:RT; [|eauto].
  destruct (i_kind root) as [m| | | | | | | | | | | | | |] eqn:K; eauto.
  assert (PR : place r [root]) by (eapply place_root_of; [eapply place_tail; [exact P | discriminate] | exact RT]).
  unfold modules_of in *. rewrite <- (map_length fst) in LM, LB.
  destruct (levels_total r _ (lookup r d) t (ns_for t) (ready r)
    ltac:(intros self p s o s' PS _ RS LS; destruct (lookup_ready _ _ _ _ _ _ _ _ TR PS RS LS) as (A & B & _);
          split; [auto | intros q Eq; now destruct (B q Eq)]) root
    ltac:(intros; eapply lookup_total; eauto) (map fst (module_entries r)) (module_number r)
    (fun q => pub_short r root q TR PR) d PR LM b O [([root], m)] (p_cache c, [])) as (o & s' & E).
  - intros q k [Y | []]. injection Y as <- <-. split; [eapply pm_root; eauto | cbn; now rewrite K].
  - intros q k [Y | []]. now injection Y as <- <-.
  - lia.
  - exact RD.
  - constructor.
  - intros ? [].
  - rewrite E. eauto.
Qed.

Lemma pub_sound_ready r d b self t root c nm c' : tree r -> own_addresses r -> place r self -> asked self t root ->
  ready r c -> public_of r d b self c = Some (Found (Some nm), c') -> found_names r t root nm.
Proof.
  intros TR OWN P (p & up & -> & CR) RD E. unfold public_of in E.
  assert (RT : the_root (p :: up) = Some root).
  { unfold crate_of in CR. unfold the_root. change (rev (t :: p :: up)) with (rev (p :: up) ++ [t]) in CR.
    destruct (rev (p :: up)) as [| a l] eqn:RV; [|exact CR].
    apply (f_equal (@length item)) in RV. rewrite rev_length in RV. discriminate. }
  rewrite RT in E. destruct (i_kind root) as [m| | | | | | | | | | | | | |] eqn:K; try discriminate.
  destruct (levels r (lookup r d) t (ns_for t) b d [([root], m)] (c, [])) as [[o1 s1]|] eqn:L; [|discriminate].
  injection E as -> _.
  assert (PR : place r [root]) by (eapply place_root_of; [eapply place_tail; [exact P | discriminate] | exact RT]).
  destruct (levels_sound r _ (lookup r d) t (ns_for t) (ready r) (fun q p i => may_refer r q p (ns_for t) i) (p :: up) OWN P)
    with (root := root) (5 := L) as [_ G]; auto.
  - intros self0 p0 s o s' PS _ RS LS. destruct (lookup_ready _ _ _ _ _ _ _ _ TR PS RS LS) as (A & B & _). split; auto.
  - intros q k [Y | []]. injection Y as <- <-. split; [eapply pm_root; eauto | cbn; now rewrite K].
  - destruct (G _ eq_refl) as (q & Q & N & M & i & OF & IP). split; auto. exists q, i. repeat split; auto.
    revert OF. apply offers_mono; eauto.
Qed.
Lemma pub_sound_proof : pub_sound_statement.
Proof.
  intros r d b self t root c nm c' TR OWN P AS RC E. eapply pub_sound_ready; eauto using reached_ready.
Qed.
Lemma strs_eqb_eq a : forall b, strs_eqb a b = true -> a = b.
Proof.
  induction a as [| x a IH]; destruct b as [| y b]; cbn; try congruence. intro E. apply andb_prop in E as [A B].
  apply eqb_eq in A. apply IH in B. congruence.
Qed.
Lemma pub_cached_proof : pub_cached_statement.
Proof.
  intros r d b self t root c nm c' TR OWN ONE P HN AS RC E.
  assert (INV : forall self t root nm, place r self -> has_name self -> asked self t root ->
    p_find (p_known c) (path_of self) = Some (Found (Some nm)) -> found_names r t root nm).
  { clear -TR OWN ONE RC. induction RC as [| c self p n o c' RC IH P L | c self o c' RC IH P HN E].
    - cbn. discriminate.
    - exact IH.
    - unfold public in E. destruct (p_find (p_known c) (path_of self)) eqn:F; [now injection E as <- <-|].
      destruct (public_of r d b self (p_cache c)) as [[o1 c1]|] eqn:PO; [|discriminate]. injection E as <- <-.
      intros self2 t root nm P2 HN2 AS F2. cbn [p_known p_find] in F2.
      destruct (strs_eqb (path_of self) (path_of self2)) eqn:SE; [|eapply IH; eauto].
      apply strs_eqb_eq in SE. assert (self = self2) as -> by (apply ONE; auto). injection F2 as ->.
      eapply pub_sound_ready; eauto using reached_ready. }
  unfold public in E. destruct (p_find (p_known c) (path_of self)) eqn:F.
  - injection E as -> <-. eauto.
  - destruct (public_of r d b self (p_cache c)) as [[o1 c1]|] eqn:PO; [|discriminate]. injection E as -> <-.
    eapply pub_sound_ready; eauto using reached_ready.
Qed.
Lemma root_module r q root : tree r -> place r q -> forall m, top_module q = Some m -> the_root q = Some root ->
  exists k, i_kind root = KModule k.
Proof.
  intros (_ & T2 & _) P. induction P as [x i I | p m self i P IH K I | b]; intros k TM RT.
  - cbn in RT. injection RT as <-. eauto.
  - apply (IH m); [cbn; now rewrite K|]. unfold the_root in *. change (rev (i :: p :: self)) with (rev (p :: self) ++ [i]) in RT.
    destruct (rev (p :: self)) as [| a l] eqn:RV; [|exact RT].
    apply (f_equal (@length item)) in RV. rewrite rev_length in RV. discriminate.
  - discriminate.
Qed.
Lemma top_of_parent r t p up : place r (t :: p :: up) -> exists m, top_module (p :: up) = Some m.
Proof. intros P. inversion P as [| p' m self i P' K I |]; subst. exists m. cbn. now rewrite K. Qed.

Lemma ns_for_type t : i_kind t <> KFn -> ns_for t = NsType.
Proof. unfold ns_for. now destruct (i_kind t). Qed.
Lemma pub_complete_proof : pub_complete_statement.
Proof.
  intros r d b self t root c o c' TR OWN P (p & up & -> & CR) RC NF IDT ST E. unfold public_of in E.
  pose proof (ns_for_type t NF) as NT.
  pose proof (reached_ready _ _ _ _ TR RC) as RD.
  assert (RT : the_root (p :: up) = Some root).
  { unfold crate_of in CR. unfold the_root. change (rev (t :: p :: up)) with (rev (p :: up) ++ [t]) in CR.
    destruct (rev (p :: up)) as [| a l] eqn:RV; [|exact CR].
    apply (f_equal (@length item)) in RV. rewrite rev_length in RV. discriminate. }
  assert (PR : place r [root]) by (eapply place_root_of; [eapply place_tail; [exact P | discriminate] | exact RT]).
  destruct (top_of_parent _ _ _ _ P) as [mp TMP].
  destruct (root_module r (p :: up) root TR (place_tail _ _ _ P ltac:(discriminate)) _ TMP RT) as [m K].
  rewrite RT, K, NT in E.
  destruct (levels r (lookup r d) t NsType b d [([root], m)] (c.(p_cache), [])) as [[o1 s1]|] eqn:L; [|discriminate].
  injection E as -> _.
  set (R := fun q p i => refers r q p NsType (Some i)).
  assert (SET : forall q p', place r q -> given r q p' -> exists oo, refers r q p' NsType oo).
  { intros q p' PQ (k & it & TM & I & PB & KI). destruct (ST q k it p' PQ TM I PB) as [A B].
    destruct KI as [KI | KI]; [auto|]. destruct (B KI) as (oo & C & _). eauto. }
  assert (HL : forall self p s o s', place r self -> given r self p -> ready r s -> lookup r d self p NsType s = Some (o, s') ->
    ready r s' /\ (forall q, o = Found q -> place r q /\ R self p q)).
  { intros self0 p0 s o0 s' PS GV RS LS. destruct (lookup_ready _ _ _ _ _ _ _ _ TR PS RS LS) as (A & B & C). split; auto.
    intros q ->. destruct (B q eq_refl) as [B1 _]. split; auto. destruct (SET _ _ PS GV) as [oo RF].
    specialize (C _ RF). destruct oo as [i|]; cbn in C; [|discriminate]. injection C as ->. exact RF. }
  assert (PL : forall q p i, place r q -> given r q p -> R q p i -> place r i).
  { intros q p0 i PQ GV RI. unfold R in RI. destruct (refers_found _ _ _ _ _ RI PQ) as (E & RE).
    destruct (resolve_unary r unit (pure r E) (fun _ => True)) with (4 := RE) as [_ G]; auto.
    - intros self0 x0 n0 s0 o0 s0' PS _ EE. eapply pure_sound; eauto.
    - now destruct (G _ eq_refl). }
  assert (X : forall self p s o s', place r self -> given r self p -> ready r s -> lookup r d self p NsType s = Some (o, s') ->
    (o = Fail NotFound /\ forall q, ~ R self p q) \/ (exists q, o = Found q /\ R self p q /\ forall q', R self p q' -> q' = q)).
  { intros self0 p0 s o0 s' PS GV RS LS. destruct (lookup_ready _ _ _ _ _ _ _ _ TR PS RS LS) as (_ & _ & C).
    destruct (SET _ _ PS GV) as [oo RF]. specialize (C _ RF). subst o0. unfold R. destruct oo as [q|]; cbn [answer].
    - right. exists q. repeat split; auto. intros q' RQ.
      pose proof (one_meaning_proof _ _ _ _ _ _ TR PS RQ RF). congruence.
    - left. split; auto. intros q RQ. pose proof (one_meaning_proof _ _ _ _ _ _ TR PS RQ RF). congruence. }
  assert (GM : forall self m it p q, place r self -> top_module self = Some m -> In it (items_of r m) ->
    i_vis it = Public -> i_kind it = KGlob p -> R self p q -> exists k, top_module q = Some k).
  { intros self0 m0 it0 p0 q PS TM I PB KI RQ. destruct (ST _ _ _ p0 PS TM I PB) as [_ B]. destruct (B KI) as (oo & C & D).
    apply D. exact (one_meaning_proof _ _ _ _ _ _ TR PS C RQ). }
  assert (OUT : outcome r t R root o).
  { refine (levels_complete r _ (lookup r d) t NsType (ready r) R (p :: up) OWN P HL root X GM IDT TR PL d PR b O
      [([root], m)] (p_cache c, []) o s1 _ _ _ _ _ _ L).
    - intros q k [Y | []]. injection Y as <- <-. split; [eapply pm_root; eauto | cbn; now rewrite K].
    - intros q k [Y | []]. now injection Y as <- <-.
    - intros q k Q TM LQ. destruct Q as [m' K' | q m' it k' Q A B C D].
      + left. cbn in TM. rewrite K in TM. injection TM as ->. reflexivity.
      + cbn in LQ. destruct Q; cbn in LQ; lia.
    - intros k [].
    - intros q k Q _ LQ. destruct Q; cbn in LQ; lia.
    - exact RD. }
  destruct OUT as [(-> & N) | (nm & q & -> & Q & (G1 & G2 & i & G3 & G4) & SH)]; split.
  - intros q x i Q OF IP. elim (N q Q x i OF IP).
  - congruence.
  - intros q' x i' Q' OF IP. exists nm. split; auto. rewrite G2, path_of_length.
    destruct (le_lt_dec (length q) (length q')) as [LE | LT]; auto. elim (SH q' Q' LT x i' OF IP).
  - intros _. exists nm, q, i. repeat split; auto.
Qed.
