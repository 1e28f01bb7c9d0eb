(** Ownership rules for the programs of Own_Model. *)
From Verif Require Import Base Own_Model Own_Spec.
Require Import Coq.Sorting.Permutation.
From Coq Require Import Lia.

Notation cells := (list (nat * cell)).

(** Starting with [P] besides what others have, [m] ends with an outcome and cells as [Q] says. *)
Definition triple {A} (P : cells) (m : M A) (Q : out A -> cells -> Prop) : Prop :=
  forall h rest, tidy h -> Permutation (live h) (P ++ rest) ->
  exists o h' own, m h = (o, h') /\ tidy h' /\ Permutation (live h') (own ++ rest) /\ Q o own.

Lemma t_ret {A} (a : A) P (Q : out A -> cells -> Prop) : Q (Val a) P -> triple P (ret a) Q.
Proof. intros H h rest T E. exists (Val a), h, P. auto. Qed.

Lemma t_raise {A} (o : out A) P (Q : out A -> cells -> Prop) : Q o P -> triple P (raise o) Q.
Proof. intros H h rest T E. exists o, h, P. auto. Qed.

Lemma t_bind {A B} P (m : M A) (k : A -> M B) Q (R : out B -> cells -> Prop) :
  triple P m Q ->
  (forall a own, Q (Val a) own -> triple own (k a) R) ->
  (forall own, Q Throw own -> R Throw own) ->
  (forall own, Q Trap own -> R Trap own) ->
  (forall own, Q Bad own -> R Bad own) ->
  triple P (bind m k) R.
Proof.
  intros Hm Hk HT HP HB h rest T E. destruct (Hm h rest T E) as (o & h' & own & E1 & T1 & E2 & HQ).
  unfold bind. rewrite E1. destruct o as [a| | |].
  - exact (Hk a own HQ h' rest T1 E2).
  - exists Throw, h', own. auto.
  - exists Trap, h', own. auto.
  - exists Bad, h', own. auto.
Qed.

Lemma t_attempt {A} P (m : M A) Q (R : out (option A) -> cells -> Prop) :
  triple P m Q ->
  (forall a own, Q (Val a) own -> R (Val (Some a)) own) ->
  (forall own, Q Throw own -> R (Val None) own) ->
  (forall own, Q Trap own -> R Trap own) ->
  (forall own, Q Bad own -> R Bad own) ->
  triple P (attempt m) R.
Proof.
  intros Hm HV HT HP HB h rest T E. destruct (Hm h rest T E) as (o & h' & own & E1 & T1 & E2 & HQ).
  unfold attempt. rewrite E1. destruct o as [a| | |].
  - exists (Val (Some a)), h', own. auto.
  - exists (Val None), h', own. auto.
  - exists Trap, h', own. auto.
  - exists Bad, h', own. auto.
Qed.

Lemma t_catch {A} P (m k : M A) Q (R : out A -> cells -> Prop) :
  triple P m Q ->
  (forall a own, Q (Val a) own -> R (Val a) own) ->
  (forall own, Q Throw own -> triple own k R) ->
  (forall own, Q Trap own -> R Trap own) ->
  (forall own, Q Bad own -> R Bad own) ->
  triple P (catch m k) R.
Proof.
  intros Hm HV HT HP HB h rest T E. destruct (Hm h rest T E) as (o & h' & own & E1 & T1 & E2 & HQ).
  unfold catch. rewrite E1. destruct o as [a| | |].
  - exists (Val a), h', own. auto.
  - exact (HT own HQ h' rest T1 E2).
  - exists Trap, h', own. auto.
  - exists Bad, h', own. auto.
Qed.

Lemma t_weaken {A} P (m : M A) (Q R : out A -> cells -> Prop) :
  triple P m Q -> (forall o own, Q o own -> R o own) -> triple P m R.
Proof.
  intros H I h rest T E. destruct (H h rest T E) as (o & h' & own & E1 & T1 & E2 & HQ).
  exists o, h', own. auto.
Qed.

Lemma t_perm {A} P P' (m : M A) Q : Permutation P P' -> triple P' m Q -> triple P m Q.
Proof.
  intros E0 H h rest T E. apply (H h rest T). rewrite E. now apply Permutation_app_tail.
Qed.

(** * The heap *)
Lemma t_new c P (Q : out nat -> cells -> Prop) :
  (forall i, Q (Val i) ((i, c) :: P)) -> triple P (new c) Q.
Proof.
  intros H h rest [T1 T2] E. exists (Val (next h)), (Heap (S (next h)) ((next h, c) :: live h)), ((next h, c) :: P).
  split; [reflexivity|]. split; [split|split].
  - cbn. constructor; [|exact T1]. intros I. apply in_map_iff in I as (x & E1 & I).
    rewrite Forall_forall in T2. specialize (T2 x I). lia.
  - cbn. constructor; [cbn; lia|]. rewrite Forall_forall in *. intros x I. specialize (T2 x I). lia.
  - cbn. now constructor.
  - apply H.
Qed.

Lemma lookup_in i c l : NoDup (map fst l) -> In (i, c) l -> lookup i l = Some c.
Proof.
  induction l as [|[j d] l IH]; cbn; [tauto|]. intros N [E|I].
  - injection E as -> ->. now rewrite Nat.eqb_refl.
  - inversion N as [|? ? N1 N2]; subst. destruct (Nat.eqb_spec i j) as [->|]; [|auto].
    destruct N1. apply in_map_iff. exists (j, c). auto.
Qed.
Lemma remove_perm i c l : lookup i l = Some c -> Permutation l ((i, c) :: remove i l).
Proof.
  induction l as [|[j d] l IH]; cbn; [discriminate|]. destruct (Nat.eqb_spec i j) as [->|].
  - intros [= ->]. reflexivity.
  - intros E. rewrite (IH E) at 1. constructor.
Qed.

Lemma tidy_perm h n l : tidy h -> next h <= n -> Permutation (live h) l -> tidy (Heap n l).
Proof.
  intros [T1 T2] L E. split; cbn.
  - eapply Permutation_NoDup; [|exact T1]. now apply Permutation_map.
  - rewrite Forall_forall in *. intros x I. apply Permutation_sym in E.
    specialize (T2 x (Permutation_in _ E I)). lia.
Qed.
Lemma tidy_tail n x l : tidy (Heap n (x :: l)) -> tidy (Heap n l).
Proof. intros [T1 T2]. cbn in *. inversion T1; inversion T2; subst. split; auto. Qed.

Lemma t_take i c P P' (Q : out cell -> cells -> Prop) :
  Permutation P ((i, c) :: P') -> Q (Val c) P' -> triple P (take i) Q.
Proof.
  intros E0 H h rest T E.
  assert (Permutation (live h) ((i, c) :: P' ++ rest)) as E1.
  { rewrite E. change ((i, c) :: P' ++ rest) with (((i, c) :: P') ++ rest). now apply Permutation_app_tail. }
  assert (lookup i (live h) = Some c) as L.
  { apply lookup_in; [apply T|]. eapply Permutation_in; [symmetry; exact E1|now left]. }
  assert (Permutation (live h) ((i, c) :: remove i (live h))) as E2 by now apply remove_perm.
  exists (Val c), (Heap (next h) (remove i (live h))), P'. unfold take. rewrite L. split; [reflexivity|].
  split; [|split; [|exact H]].
  - apply tidy_tail with (x := (i, c)). eapply tidy_perm; [exact T|lia|exact E2].
  - cbn. apply Permutation_cons_inv with (a := (i, c)). now rewrite <- E2.
Qed.

Lemma t_look i c P P' (Q : out cell -> cells -> Prop) :
  Permutation P ((i, c) :: P') -> Q (Val c) P -> triple P (look i) Q.
Proof.
  intros E0 H h rest T E.
  assert (lookup i (live h) = Some c) as L.
  { apply lookup_in; [apply T|]. eapply Permutation_in; [symmetry; exact E|]. apply in_or_app. left.
    eapply Permutation_in; [symmetry; exact E0|now left]. }
  exists (Val c), h, P. unfold look. rewrite L. auto.
Qed.

Lemma t_fill i ss ss' P P' (Q : out unit -> cells -> Prop) :
  Permutation P ((i, CBuf ss) :: P') -> Q (Val tt) ((i, CBuf ss') :: P') -> triple P (fill i ss') Q.
Proof.
  intros E0 H h rest T E.
  assert (Permutation (live h) ((i, CBuf ss) :: P' ++ rest)) as E1.
  { rewrite E. change ((i, CBuf ss) :: P' ++ rest) with (((i, CBuf ss) :: P') ++ rest). now apply Permutation_app_tail. }
  assert (lookup i (live h) = Some (CBuf ss)) as L.
  { apply lookup_in; [apply T|]. eapply Permutation_in; [symmetry; exact E1|now left]. }
  assert (Permutation (live h) ((i, CBuf ss) :: remove i (live h))) as E2 by now apply remove_perm.
  exists (Val tt), (Heap (next h) ((i, CBuf ss') :: remove i (live h))), ((i, CBuf ss') :: P').
  unfold fill. rewrite L. split; [reflexivity|]. split; [|split; [|exact H]].
  - assert (tidy (Heap (next h) ((i, CBuf ss) :: remove i (live h)))) as [T1 T2]
      by (eapply tidy_perm; [exact T|lia|exact E2]).
    split; cbn in *; [exact T1|]. inversion T2; subst. now constructor.
  - cbn. constructor. apply Permutation_cons_inv with (a := (i, CBuf ss)). now rewrite <- E2.
Qed.

Lemma t_take_ref i P P' (Q : out unit -> cells -> Prop) :
  Permutation P ((i, CRef) :: P') -> Q (Val tt) P' -> triple P (take_ref i) Q.
Proof.
  intros E H. unfold take_ref. eapply t_bind.
  - apply (t_take _ _ _ _ (fun o own => o = Val CRef /\ own = P') E). auto.
  - intros a own [[= ->] ->]. now apply t_ret.
  - now intros own [? _].
  - now intros own [? _].
  - now intros own [? _].
Qed.
Lemma t_take_buf i ss P P' (Q : out (list slot) -> cells -> Prop) :
  Permutation P ((i, CBuf ss) :: P') -> Q (Val ss) P' -> triple P (take_buf i) Q.
Proof.
  intros E H. unfold take_buf. eapply t_bind.
  - apply (t_take _ _ _ _ (fun o own => o = Val (CBuf ss) /\ own = P') E). auto.
  - intros a own [[= ->] ->]. now apply t_ret.
  - now intros own [? _].
  - now intros own [? _].
  - now intros own [? _].
Qed.
Lemma t_look_buf i ss P P' (Q : out (list slot) -> cells -> Prop) :
  Permutation P ((i, CBuf ss) :: P') -> Q (Val ss) P -> triple P (look_buf i) Q.
Proof.
  intros E H. unfold look_buf. eapply t_bind.
  - apply (t_look _ _ _ _ (fun o own => o = Val (CBuf ss) /\ own = P) E). auto.
  - intros a own [[= ->] ->]. now apply t_ret.
  - now intros own [? _].
  - now intros own [? _].
  - now intros own [? _].
Qed.

(** * Counting *)
Lemma buffers_app l l' : buffers (l ++ l') = buffers l + buffers l'.
Proof. induction l as [|[i [|ss]] l IH]; cbn; lia. Qed.
Lemma references_app l l' : references (l ++ l') = references l + references l'.
Proof. induction l as [|[i [|ss]] l IH]; cbn; lia. Qed.
Lemma buffers_perm l l' : Permutation l l' -> buffers l = buffers l'.
Proof. induction 1 as [|[i [|ss]] l l' E IH|[i [|?]] [j [|?]] l|]; cbn; lia. Qed.
Lemma references_perm l l' : Permutation l l' -> references l = references l'.
Proof. induction 1 as [|[i [|ss]] l l' E IH|[i [|?]] [j [|?]] l|]; cbn; lia. Qed.

Definition refs (rs : list nat) : cells := map (fun r => (r, CRef)) rs.
Lemma buffers_refs rs : buffers (refs rs) = 0.
Proof. induction rs; cbn; auto. Qed.
Lemma references_refs rs : references (refs rs) = length rs.
Proof. induction rs; cbn; auto. Qed.
Lemma refs_app rs rs' : refs (rs ++ rs') = refs rs ++ refs rs'.
Proof. apply map_app. Qed.

(** * Writing and reading *)
Fixpoint slot_refs (ss : list slot) : list nat :=
  match ss with
  | [] => []
  | SRef r :: ss' => r :: slot_refs ss'
  | _ :: ss' => slot_refs ss'
  end.
(** What is in a buffer for some parts. *)
Inductive holds : list part -> list slot -> Prop :=
| holds_nil : holds [] []
| holds_plain ps ss : holds ps ss -> holds (Plain :: ps) (SData :: ss)
| holds_object ps ss r : holds ps ss -> holds (Object :: ps) (SRef r :: ss)
| holds_bad ps ss : holds ps ss -> holds (Unreadable :: ps) (SBad :: ss).

Lemma holds_writable ps ss : holds ps ss -> Forall writable ps.
Proof. induction 1; constructor; auto; discriminate. Qed.
Lemma holds_count ps ss : holds ps ss -> length (slot_refs ss) = objects ps.
Proof. induction 1; cbn; auto. Qed.

(** The references that were written when writing stops. *)
Definition written_until ps (rs : list nat) := length rs = objects (until_unwritable ps) /\ ~ Forall writable ps.

Definition wrote (fails : out (list slot)) ps P (o : out (list slot)) (own : cells) : Prop :=
  (exists ss, o = Val ss /\ holds ps ss /\ Permutation own (refs (slot_refs ss) ++ P)) \/
  (exists rs, o = fails /\ written_until ps rs /\ Permutation own (refs rs ++ P)).

Lemma t_write fails ps : (forall ss, fails <> Val ss) -> forall P, triple P (write_parts fails ps) (wrote fails ps P).
Proof.
  intros NV. induction ps as [|p ps IH]; intros P; cbn [write_parts].
  - apply t_ret. left. exists []. repeat split; auto. constructor.
  - assert (forall s P', (forall ss, holds ps ss -> holds (p :: ps) (s :: ss)) ->
      (forall ss, Permutation (refs (slot_refs ss) ++ P') (refs (slot_refs (s :: ss)) ++ P)) ->
      (forall rs, written_until ps rs -> exists rs', written_until (p :: ps) rs' /\ Permutation (refs rs ++ P') (refs rs' ++ P)) ->
      triple P' (do ss <- write_parts fails ps; ret (s :: ss)) (wrote fails (p :: ps) P)) as step.
    { intros s P' H1 H2 H3. eapply t_bind; [apply IH| | | |].
      - intros ss own [(ss' & [= <-] & Hh & E)|(rs & E & _)]; [|edestruct NV; eauto].
        apply t_ret. left. exists (s :: ss). repeat split; auto. now rewrite E.
      - intros own [(ss' & [=] & _)|(rs & E & W & E')]. right. destruct (H3 rs W) as (rs' & W' & E2).
        exists rs'. repeat split; try apply W'; auto. now rewrite E'.
      - intros own [(ss' & [=] & _)|(rs & E & W & E')]. right. destruct (H3 rs W) as (rs' & W' & E2).
        exists rs'. repeat split; try apply W'; auto. now rewrite E'.
      - intros own [(ss' & [=] & _)|(rs & E & W & E')]. right. destruct (H3 rs W) as (rs' & W' & E2).
        exists rs'. repeat split; try apply W'; auto. now rewrite E'. }
    destruct p.
    + apply step; [constructor; auto|reflexivity|]. intros rs [L N]. exists rs. split; [|reflexivity].
      split; [exact L|]. intros F. inversion F; auto.
    + apply t_bind with (Q := fun o own => exists i, o = Val i /\ own = (i, CRef) :: P);
        [apply t_new; eauto| | | |]; try (now intros own (i & ? & _)).
      intros i own (j & [= <-] & ->). apply (step (SRef i)).
      * constructor; auto.
      * intros ss. cbn. symmetry. apply Permutation_middle.
      * intros rs [L N]. exists (i :: rs). split; [split|].
        -- cbn. lia.
        -- intros F. inversion F; auto.
        -- cbn. symmetry. apply Permutation_middle.
    + apply t_raise. right. exists []. repeat split; auto. intros F. inversion F; subst. auto.
    + apply step; [constructor; auto|reflexivity|]. intros rs [L N]. exists rs. split; [|reflexivity].
      split; [exact L|]. intros F. inversion F; auto.
Qed.

Definition unread_after ps (rs : list nat) := length rs = objects (after_unreadable ps) /\ ~ Forall readable ps.
Definition did_read ps P (o : out unit) (own : cells) : Prop :=
  (o = Val tt /\ Forall readable ps /\ Permutation own P) \/
  (exists rs, o = Throw /\ unread_after ps rs /\ Permutation own (refs rs ++ P)).

Lemma t_read ps ss : holds ps ss -> forall P P0, Permutation P0 (refs (slot_refs ss) ++ P) ->
  triple P0 (read_slots ss) (did_read ps P).
Proof.
  induction 1 as [|ps ss H IH|ps ss r H IH|ps ss H IH]; intros P P0 E; cbn [read_slots].
  - apply t_ret. left. repeat split; auto.
  - eapply t_weaken; [apply (IH P P0 E)|].
    intros o own [(-> & F & E')|(rs & -> & [L N] & E')]; [left|right].
    + repeat split; auto. constructor; [discriminate|auto].
    + exists rs. repeat split; auto. intros F. inversion F; auto.
  - apply t_bind with (Q := fun o own => o = Val tt /\ own = refs (slot_refs ss) ++ P).
    + apply t_take_ref with (P' := refs (slot_refs ss) ++ P); auto.
    + intros a own [_ ->]. eapply t_weaken; [apply (IH P); reflexivity|].
      intros o own [(-> & F & E')|(rs & -> & [L N] & E')]; [left|right].
      * repeat split; auto. constructor; [discriminate|auto].
      * exists rs. repeat split; auto. intros F. inversion F; auto.
    + now intros own [? _].
    + now intros own [? _].
    + now intros own [? _].
  - apply t_raise. right. exists (slot_refs ss). repeat split; auto.
    + cbn. now apply holds_count.
    + intros F. inversion F; subst. auto.
Qed.

(** * Values on their way *)
Inductive carries : value -> ffi -> cells -> Prop :=
| carries_plain : carries (Direct Plain) (Word true) []
| carries_bad : carries (Direct Unreadable) (Word false) []
| carries_object r : carries (Direct Object) (Handle r) [(r, CRef)]
| carries_packed ps b ss : holds ps ss ->
    carries (Packed ps) (Buffer b) ((b, CBuf ss) :: refs (slot_refs ss)).

Lemma carries_writable v f own : carries v f own -> all_of writable v.
Proof. intros [| | |ps b ss H]; try (repeat constructor; discriminate). exact (holds_writable _ _ H). Qed.
Lemma carries_buffers v f own : carries v f own -> buffers own = buffers_of v.
Proof. intros []; cbn; auto. now rewrite buffers_refs. Qed.
Lemma carries_objects v f own : carries v f own -> references own = objects_of v.
Proof. intros []; cbn; auto. rewrite references_refs. now apply holds_count. Qed.

Definition packed (fails : forall A, out A) ps P (o : out nat) (own : cells) : Prop :=
  (exists b ss, o = Val b /\ holds ps ss /\ Permutation own (((b, CBuf ss) :: refs (slot_refs ss)) ++ P)) \/
  (exists rs, o = fails nat /\ written_until ps rs /\ Permutation own (refs rs ++ P)).

Lemma t_pack_copied ps P (fails : forall A, out A) : fails = throws \/ fails = traps ->
  triple P (pack_copied (fails _) ps) (packed fails ps P).
Proof.
  intros F. unfold pack_copied. eapply t_bind.
  - apply t_write. destruct F as [-> | ->]; discriminate.
  - intros ss own [(ss' & [= <-] & H & E)|(rs & E & _)]; [|destruct F as [-> | ->]; discriminate E].
    apply t_new. intros i. left. exists i, ss. repeat split; auto. cbn. now constructor.
  - intros own [(ss' & [=] & _)|(rs & E & H & E')]. right. exists rs.
    destruct F as [-> | ->]; [|discriminate E]. auto.
  - intros own [(ss' & [=] & _)|(rs & E & H & E')]. right. exists rs.
    destruct F as [-> | ->]; [discriminate E|]. auto.
  - intros own [(ss' & [=] & _)|(rs & E & H & E')]. destruct F as [-> | ->]; discriminate E.
Qed.

Lemma t_pack_allocated ps P : triple P (pack_allocated ps) (packed throws ps P).
Proof.
  unfold pack_allocated.
  apply t_bind with (Q := fun o own => exists i, o = Val i /\ own = (i, CBuf []) :: P);
    [apply t_new; eauto| | | |]; try (now intros own (i & ? & _)).
  intros b own (b' & [= <-] & ->).
  apply t_bind with (Q := fun o own =>
    (exists ss, o = Val ss /\ holds ps ss /\ Permutation own ((b, CBuf []) :: refs (slot_refs ss) ++ P)) \/
    (exists rs, o = Throw /\ written_until ps rs /\ Permutation own (refs rs ++ P))).
  - eapply t_catch; [apply t_write; discriminate| | | |].
    + intros ss own [(ss' & [= <-] & H & E)|(rs & [=] & _)]. left. exists ss. repeat split; auto.
      rewrite E. symmetry. apply Permutation_middle.
    + intros own [(ss' & [=] & _)|(rs & _ & H & E)].
      apply t_bind with (Q := fun o own' => o = Val [] /\ own' = refs rs ++ P);
        try (now intros own' [? _]).
      * apply t_take_buf with (ss := []) (P' := refs rs ++ P); [|auto]. rewrite E. symmetry. apply Permutation_middle.
      * intros a own' [_ ->]. apply t_raise. right. exists rs. auto.
    + intros own [(ss' & [=] & _)|(rs & [=] & _)].
    + intros own [(ss' & [=] & _)|(rs & [=] & _)].
  - intros ss own [(ss' & [= <-] & H & E)|(rs & [=] & _)].
    apply t_bind with (Q := fun o own' => o = Val tt /\ own' = (b, CBuf ss) :: refs (slot_refs ss) ++ P);
      try (now intros own' [? _]).
    + eapply t_fill; [exact E|]. auto.
    + intros a own' [_ ->]. apply t_ret. left. exists b, ss. repeat split; auto.
  - intros own [(ss' & [=] & _)|(rs & _ & H & E)]. right. exists rs. auto.
  - intros own [(ss' & [=] & _)|(rs & [=] & _)].
  - intros own [(ss' & [=] & _)|(rs & [=] & _)].
Qed.

(** How a side fails when it cannot write. *)
Definition failure (L : lang) : forall A, out A := match L with Swift => traps | _ => throws end.
Lemma failure_cases L : failure L = throws \/ failure L = traps.
Proof. destruct L; cbn; auto. Qed.
Lemma t_pack L ps P : triple P (pack L ps) (packed (failure L) ps P).
Proof.
  destruct L; cbn [pack failure]; try apply t_pack_allocated.
  apply (t_pack_copied ps P traps). auto.
Qed.

Definition sent_until v (rs : list nat) := length rs = objects (until_unwritable (parts v)) /\ ~ all_of writable v.
Definition lowered (fails : forall A, out A) v P (o : out ffi) (own : cells) : Prop :=
  (exists f c, o = Val f /\ carries v f c /\ Permutation own (c ++ P)) \/
  (exists rs, o = fails _ /\ sent_until v rs /\ Permutation own (refs rs ++ P)).

Lemma t_lower_with fails pk v P : fails = throws \/ fails = traps ->
  (forall ps P, triple P (pk ps) (packed fails ps P)) ->
  triple P (lower_with fails pk v) (lowered fails v P).
Proof.
  intros F H. destruct v as [[]|ps]; cbn [lower_with].
  - apply t_ret. left. exists (Word true), []. repeat split; auto. constructor.
  - apply t_bind with (Q := fun o own => exists i, o = Val i /\ own = (i, CRef) :: P);
      [apply t_new; eauto| | | |]; try (now intros own (i & ? & _)).
    intros r own (r' & [= <-] & ->). apply t_ret. left. exists (Handle r), [(r, CRef)].
    repeat split; auto. constructor.
  - apply t_raise. right. exists []. repeat split; auto. intros W. inversion W; subst. auto.
  - apply t_ret. left. exists (Word false), []. repeat split; auto. constructor.
  - eapply t_bind; [apply H| | | |].
    + intros b own [(b' & ss & [= <-] & Hh & E)|(rs & E & _)]; [|destruct F as [-> | ->]; discriminate E].
      apply t_ret. left. exists (Buffer b), ((b, CBuf ss) :: refs (slot_refs ss)). repeat split; auto.
      now constructor.
    + intros own [(b' & ss & [=] & _)|(rs & E & W & E')]. right. exists rs.
      destruct F as [-> | ->]; [|discriminate E]. auto.
    + intros own [(b' & ss & [=] & _)|(rs & E & W & E')]. right. exists rs.
      destruct F as [-> | ->]; [discriminate E|]. auto.
    + intros own [(b' & ss & [=] & _)|(rs & E & W & E')]. destruct F as [-> | ->]; discriminate E.
Qed.
Lemma t_lower L v P : triple P (lower L v) (lowered (failure L) v P).
Proof.
  assert (lower L v = lower_with (failure L) (pack L) v) as -> by now destruct L.
  apply t_lower_with; [apply failure_cases|]. intros. apply t_pack.
Qed.
Lemma t_rust_lower v P : triple P (rust_lower v) (lowered throws v P).
Proof.
  apply t_lower_with; [auto|]. intros. apply (t_pack_copied ps P0 throws). auto.
Qed.

(** Several values. *)
Inductive carry : list value -> list ffi -> cells -> Prop :=
| carry_nil : carry [] [] []
| carry_cons v vs f fs c cs : carries v f c -> carry vs fs cs -> carry (v :: vs) (f :: fs) (c ++ cs).

Lemma carry_writable vs fs own : carry vs fs own -> Forall (all_of writable) vs.
Proof. induction 1; constructor; auto. eapply carries_writable; eauto. Qed.
Lemma carry_buffers vs fs own : carry vs fs own -> buffers own = total buffers_of vs.
Proof. induction 1; cbn; auto. rewrite buffers_app, IHcarry. erewrite carries_buffers; eauto. Qed.
Lemma carry_objects vs fs own : carry vs fs own -> references own = total objects_of vs.
Proof. induction 1; cbn; auto. rewrite references_app, IHcarry. erewrite carries_objects; eauto. Qed.

(** The arguments before the one that cannot be sent, and what of it was written. *)
Definition stopped vs b r := exists before v after, vs = before ++ v :: after /\
  Forall (all_of writable) before /\ ~ all_of writable v /\
  b = total buffers_of before /\
  r = total objects_of before + objects (until_unwritable (parts v)).
Definition lowered_all (fails : forall A, out A) vs P (o : out (list ffi)) (own : cells) : Prop :=
  (exists fs c, o = Val fs /\ carry vs fs c /\ Permutation own (c ++ P)) \/
  (exists c, o = fails _ /\ stopped vs (buffers c) (references c) /\ Permutation own (c ++ P)).

Lemma t_lower_all fails low : fails = throws \/ fails = traps ->
  (forall v P, triple P (low v) (lowered fails v P)) ->
  forall vs P, triple P (lower_all low vs) (lowered_all fails vs P).
Proof.
  intros F H. induction vs as [|v vs IH]; intros P; cbn [lower_all].
  - apply t_ret. left. exists [], []. repeat split; auto. constructor.
  - assert (forall rs own, sent_until v rs -> Permutation own (refs rs ++ P) ->
      exists c, stopped (v :: vs) (buffers c) (references c) /\ Permutation own (c ++ P)) as first.
    { intros rs own [L N] E. exists (refs rs). split; [|exact E]. exists [], v, vs.
      rewrite buffers_refs, references_refs. repeat split; auto. }
    assert (forall f c cs own, carries v f c -> stopped vs (buffers cs) (references cs) ->
      Permutation own (cs ++ c ++ P) ->
      exists c, stopped (v :: vs) (buffers c) (references c) /\ Permutation own (c ++ P)) as later.
    { intros f c cs own C (before & w & after & -> & W & N & B & R) E. exists (c ++ cs). split.
      - exists (v :: before), w, after. repeat split; auto.
        + constructor; auto. eapply carries_writable; eauto.
        + cbn. rewrite buffers_app, B. erewrite carries_buffers; eauto.
        + cbn. rewrite references_app, R. erewrite carries_objects; eauto. lia.
      - rewrite E, !app_assoc. apply Permutation_app_tail, Permutation_app_comm. }
    eapply t_bind; [apply H| | | |].
    + intros f own [(f' & c & [= <-] & C & E)|(rs & E & _)]; [|destruct F as [-> | ->]; discriminate E].
      eapply t_perm; [exact E|]. eapply t_bind; [apply IH| | | |].
      * intros fs own' [(fs' & cs & [= <-] & Cs & E')|(rs & E' & _)];
          [|destruct F as [-> | ->]; discriminate E'].
        apply t_ret. left. exists (f :: fs), (c ++ cs). repeat split; auto.
        -- now constructor.
        -- rewrite E', !app_assoc. apply Permutation_app_tail, Permutation_app_comm.
      * intros own' [(fs' & cs & [=] & _)|(cs & E' & St & E2)]. right.
        destruct (later f c cs own' C St E2) as (cc & S' & E3). exists cc.
        destruct F as [-> | ->]; [|discriminate E']. auto.
      * intros own' [(fs' & cs & [=] & _)|(cs & E' & St & E2)]. right.
        destruct (later f c cs own' C St E2) as (cc & S' & E3). exists cc.
        destruct F as [-> | ->]; [discriminate E'|]. auto.
      * intros own' [(fs' & cs & [=] & _)|(cs & E' & _)]. destruct F as [-> | ->]; discriminate E'.
    + intros own [(f' & c & [=] & _)|(rs & E & St & E')]. right.
      destruct (first rs own St E') as (c & S' & E2). exists c. destruct F as [-> | ->]; [|discriminate E]. auto.
    + intros own [(f' & c & [=] & _)|(rs & E & St & E')]. right.
      destruct (first rs own St E') as (c & S' & E2). exists c. destruct F as [-> | ->]; [discriminate E|]. auto.
    + intros own [(f' & c & [=] & _)|(rs & E & _)]. destruct F as [-> | ->]; discriminate E.
Qed.

(** * Lifting *)

(** What is left of a value that is not accepted; [keeps]: the buffer stays. *)
Definition refused (keeps : bool) v c := ~ all_of readable v /\
  buffers c = (if keeps then buffers_of v else 0) /\ references c = objects (after_unreadable (parts v)).
Definition lifted keeps v P (o : out unit) (own : cells) : Prop :=
  (o = Val tt /\ all_of readable v /\ Permutation own P) \/
  (exists c, o = Throw /\ refused keeps v c /\ Permutation own (c ++ P)).

Definition keeps_buffer (L : lang) : bool := match L with Swift => true | _ => false end.

Lemma t_unpack L ps b ss P P0 : holds ps ss ->
  Permutation P0 ((b, CBuf ss) :: refs (slot_refs ss) ++ P) ->
  triple P0 (unpack L b) (lifted (keeps_buffer L) (Packed ps) P).
Proof.
  intros H E. unfold unpack.
  apply t_bind with (Q := fun o own => o = Val ss /\ own = P0); try (now intros own [? _]).
  { eapply t_look_buf; [exact E|]. auto. }
  intros ss' own [[= ->] ->]. eapply t_perm; [exact E|].
  assert (Permutation ((b, CBuf ss) :: refs (slot_refs ss) ++ P) (refs (slot_refs ss) ++ (b, CBuf ss) :: P)) as E1
    by apply Permutation_middle.
  assert (forall own, Permutation own ((b, CBuf ss) :: P) -> Forall readable ps ->
    triple own (run take_buf b; ret tt) (lifted (keeps_buffer L) (Packed ps) P)) as ok.
  { intros own E2 F. apply t_bind with (Q := fun o own => o = Val ss /\ own = P); try (now intros own' [? _]).
    - eapply t_take_buf; [exact E2|]. auto.
    - intros a own' [_ ->]. apply t_ret. left. auto. }
  destruct L; cbn [keeps_buffer] in *.
  3: { eapply t_bind; [apply (t_read ps ss H ((b, CBuf ss) :: P) _ E1)| | | |].
    - intros [] own [(_ & F & E2)|(rs & [=] & _)]. now apply ok.
    - intros own [([=] & _)|(rs & _ & [L N] & E2)]. right. exists (refs rs ++ [(b, CBuf ss)]). repeat split; auto.
      + cbn. now rewrite buffers_app, buffers_refs.
      + rewrite references_app, references_refs. cbn. lia.
      + rewrite E2, <- app_assoc. reflexivity.
    - intros own [([=] & _)|(rs & [=] & _)].
    - intros own [([=] & _)|(rs & [=] & _)]. }
  all: apply t_bind with (Q := fun o own =>
    (o = Val tt /\ Forall readable ps /\ Permutation own ((b, CBuf ss) :: P)) \/
    (exists rs, o = Throw /\ unread_after ps rs /\ Permutation own (refs rs ++ P))).
  all: try (eapply t_catch; [apply (t_read ps ss H ((b, CBuf ss) :: P) _ E1)| | | |]).
  all: try (intros own [([=] & _)|(rs & [=] & _)]; fail).
  all: try (intros [] own [(_ & F & E2)|(rs & [=] & _)]; left; auto; fail).
  all: try (intros own [([=] & _)|(rs & _ & W & E2)];
    apply t_bind with (Q := fun o own => o = Val ss /\ own = refs rs ++ P); try (now intros own' [? _]);
    [eapply t_take_buf; [rewrite E2; symmetry; apply Permutation_middle|auto]
    |intros a own' [_ ->]; apply t_raise; right; exists rs; auto]).
  all: try (intros [] own [(_ & F & E2)|(rs & [=] & _)]; now apply ok).
  all: intros own [([=] & _)|(rs & _ & [L N] & E2)]; right; exists (refs rs); repeat split; auto;
    [now rewrite buffers_refs|now rewrite references_refs].
Qed.

Lemma t_rust_unpack ps b ss P P0 : holds ps ss ->
  Permutation P0 ((b, CBuf ss) :: refs (slot_refs ss) ++ P) ->
  triple P0 (rust_unpack b) (lifted false (Packed ps) P).
Proof.
  intros H E. unfold rust_unpack.
  apply t_bind with (Q := fun o own => o = Val ss /\ own = refs (slot_refs ss) ++ P); try (now intros own [? _]).
  { eapply t_take_buf; [exact E|]. auto. }
  intros ss' own [[= ->] ->]. eapply t_weaken; [apply (t_read ps ss H P); reflexivity|].
  intros o own [(-> & F & E2)|(rs & -> & [L N] & E2)]; [left; auto|right].
  exists (refs rs). repeat split; auto; [now rewrite buffers_refs|now rewrite references_refs].
Qed.

Lemma t_lift_with keeps unp v f c P P0 :
  (forall ps b ss P P0, holds ps ss -> Permutation P0 ((b, CBuf ss) :: refs (slot_refs ss) ++ P) ->
    triple P0 (unp b) (lifted keeps (Packed ps) P)) ->
  carries v f c -> Permutation P0 (c ++ P) -> triple P0 (lift_with unp f) (lifted keeps v P).
Proof.
  intros H C E. destruct C as [| |r|ps b ss Hh]; cbn [lift_with].
  - apply t_ret. left. repeat split; auto. repeat constructor. discriminate.
  - apply t_raise. right. exists []. repeat split; auto.
    + intros W. inversion W; subst. auto.
    + now destruct keeps.
  - eapply t_take_ref; [exact E|]. left. repeat split; auto. repeat constructor. discriminate.
  - eapply H; eauto.
Qed.
Lemma t_lift L v f c P P0 : carries v f c -> Permutation P0 (c ++ P) ->
  triple P0 (lift L f) (lifted (keeps_buffer L) v P).
Proof. apply t_lift_with. intros. eapply t_unpack; eauto. Qed.
Lemma t_rust_lift v f c P P0 : carries v f c -> Permutation P0 (c ++ P) ->
  triple P0 (rust_lift f) (lifted false v P).
Proof. apply t_lift_with. intros. eapply t_rust_unpack; eauto. Qed.

Definition refused_all (keeps : bool) vs b r := exists before v after, vs = before ++ v :: after /\
  Forall (all_of readable) before /\ ~ all_of readable v /\
  b = (if keeps then buffers_of v else 0) + total buffers_of after /\
  r = objects (after_unreadable (parts v)) + total objects_of after.
Definition lifted_all keeps vs P (o : out unit) (own : cells) : Prop :=
  (o = Val tt /\ Forall (all_of readable) vs /\ Permutation own P) \/
  (exists c, o = Throw /\ refused_all keeps vs (buffers c) (references c) /\ Permutation own (c ++ P)).

Lemma t_lift_all keeps li :
  (forall v f c P P0, carries v f c -> Permutation P0 (c ++ P) -> triple P0 (li f) (lifted keeps v P)) ->
  forall vs fs c, carry vs fs c -> forall P P0, Permutation P0 (c ++ P) ->
  triple P0 (lift_all li fs) (lifted_all keeps vs P).
Proof.
  intros H vs fs c C. induction C as [|v vs f fs c cs C Cs IH]; intros P P0 E; cbn [lift_all].
  - apply t_ret. left. repeat split; auto.
  - eapply t_bind.
    + apply (H v f c (cs ++ P) P0 C). rewrite E. now rewrite <- app_assoc.
    + intros [] own [(_ & R & E2)|(d & [=] & _)]. eapply t_weaken; [apply (IH P own E2)|].
      intros o own' [(-> & Rs & E3)|(d & -> & (before & w & after & -> & Rs & N & B & Rf) & E3)].
      * left. repeat split; auto.
      * right. exists d. repeat split; auto. exists (v :: before), w, after. repeat split; auto.
    + intros own [([=] & _)|(d & _ & (N & B & R) & E2)]. right. exists (d ++ cs). repeat split.
      * exists [], v, vs. repeat split; auto.
        -- rewrite buffers_app, B. f_equal. eapply carry_buffers; eauto.
        -- rewrite references_app, R. f_equal. eapply carry_objects; eauto.
      * rewrite E2. now rewrite app_assoc.
    + intros own [([=] & _)|(d & [=] & _)].
    + intros own [([=] & _)|(d & [=] & _)].
Qed.
