(** The statements of C63. *)
From Verif Require Import Base Meta_Types Group_Model Api_Types Api_Spec Api_Model Api_Claims.
From Verif Require Import Univ_Spec Excl_Types Excl_Spec Excl_Model Excl_Claims Excl_Basics.
From Verif Require Excl_Ci Excl_Pl Api_Ready.
From Coq Require Import Permutation.

Lemma ci_shows_proof : ci_true (fun c _ items => no_custom c items) (fun c _ items b => shows c items b).
Proof. intros g c b OG PC OD NU NC EB. exact (Excl_Ci.ci_shows c g b OG PC OD NU EB NC). Qed.
Lemma ci_calls_proof : ci_true any (fun _ _ _ b => calls b /\ declares b).
Proof. intros g c b OG PC OD NU _ EB. split; [exact (Excl_Ci.ci_calls c g b OG PC OD NU EB)|exact (Excl_Ci.ci_declares c g b OG PC OD NU EB)]. Qed.
Lemma ci_needs_proof : ci_true (fun c _ items => keeps_traits c items) (fun c _ items b => needs_only c items b).
Proof. intros g c b OG PC OD NU KT EB. exact (Excl_Ci.ci_needs c g b OG PC OD NU EB KT). Qed.
Lemma ci_tables_proof : ci_true (fun c _ items => keeps_traits c items /\ whole_traits c items) (fun _ _ items b => tables items b).
Proof. intros g c b OG PC OD NU [KT WT] EB. exact (Excl_Ci.ci_tables c g b OG PC OD NU EB KT WT). Qed.
Lemma ci_closed_proof : ci_true (fun c crate items => no_custom c items /\ items_closed crate items /\
    unused c crate items /\ never_nested c crate items) (fun _ crate _ b => closed crate b).
Proof. intros g c b OG PC OD NU (NC & IC & UN & NN) EB. exact (Excl_Ci.ci_closed c g b OG PC OD NU EB NC IC UN NN). Qed.

Lemma pl_start gs r g n : grouped gs -> no_dashes gs ->
  (forall g, In g gs -> owned (g_items g) /\ types_differ (g_items g) /\ numbered (g_items g)) ->
  pipeline gs = Ok r -> In g gs -> In n r -> n_crate n = g_crate g ->
  of_group g /\ says (g_items g) (api_map fst (n_api n)) /\ owned (g_items g).
Proof.
  intros G D P E Hg Hn C. refine (conj _ (conj _ (proj1 (P g Hg)))).
  - destruct G as [_ G]. rewrite Forall_forall in G. exact (G g Hg).
  - exact (proj2 (Api_Ready.pipeline_true_proof gs r G D P E) g n Hg Hn C).
Qed.
Ltac start := let P := fresh in intros gs r g n c b G D P E Hg Hn C Q EB; unfold pl_bindings in EB; rewrite C in EB;
  destruct (pl_start gs r g n G D P E Hg Hn C) as (OG & SA & OW).
Lemma pl_shows_proof : pl_true any (fun c _ items b => shows c items b).
Proof. start. exact (Excl_Pl.pl_shows c g _ b SA EB). Qed.
Lemma pl_calls_proof : pl_true (fun _ _ items => eq_whole items) (fun _ _ _ b => calls b /\ declares b).
Proof. start. split; [exact (Excl_Pl.pl_calls c g _ b OG SA EB Q)|exact (Excl_Pl.pl_declares c g _ b OG SA OW EB)]. Qed.
Lemma pl_links_proof : pl_true (fun _ _ items => eq_whole items) (fun _ _ items b => links items b).
Proof. start. exact (Excl_Pl.pl_links c g _ b OG SA EB Q). Qed.
Lemma pl_tables_proof : pl_true any (fun _ _ items b => tables items b).
Proof. start. exact (Excl_Pl.pl_tables c g _ b OG SA EB). Qed.
Lemma pl_closed_proof : pl_true (fun c crate items => items_closed crate items /\
    unused c crate items /\ never_nested c crate items) (fun _ crate _ b => closed crate b).
Proof. start. destruct Q as (IC & UN & NN). exact (Excl_Pl.pl_closed c g _ b SA EB IC UN NN). Qed.

(** ** Both show the same *)

Definition out (c : conf) (m : metadata) : bool :=
  match key m with Some k => contains (excluded c) k | None => false end.
Lemma out_true c m : negb (out c m) = false <-> left_out c m.
Proof.
  rewrite Bool.negb_false_iff. unfold out, left_out. destruct (key m) as [k|]; [rewrite contains_In|]; split.
  - intros H. now exists k.
  - intros (k' & E & H). now injection E as <-.
  - discriminate.
  - intros (k' & E & _). discriminate E.
Qed.
Lemma Permutation_filter {A} (p : A -> bool) l l' : Permutation l l' -> Permutation (filter p l) (filter p l').
Proof.
  induction 1 as [|x l l' H IH|x y l|l l' l'' H IH H' IH']; cbn [filter].
  - constructor.
  - destruct (p x); [now constructor|exact IH].
  - destruct (p x), (p y); try reflexivity. constructor.
  - now transitivity (filter p l').
Qed.
Lemma Forall2_perm {A B} (R : A -> B -> Prop) l k : Forall2 R l k -> forall l', Permutation l l' ->
  exists k', Permutation k k' /\ Forall2 R l' k'.
Proof.
  intros F l' P. revert k F. induction P as [|x l l' P IH|x y l|l l' l'' P IH P' IH']; intros k F.
  - exists k. split; [reflexivity|exact F].
  - inversion F as [|? z ? k0 Rz Fz]; subst. destruct (IH k0 Fz) as (k1 & P1 & F1). exists (z :: k1).
    split; constructor; assumption.
  - inversion F as [|? z ? k0 Rz Fz]; subst. inversion Fz as [|? w ? k1 Rw Fw]; subst. exists (w :: z :: k1).
    split; [apply perm_swap|]. repeat constructor; assumption.
  - destruct (IH k F) as (k1 & P1 & F1). destruct (IH' k1 F1) as (k2 & P2 & F2). exists k2.
    split; [now transitivity k1|exact F2].
Qed.
Lemma filter_filter {A} (p q : A -> bool) l : filter p (filter q l) = filter q (filter p l).
Proof.
  induction l as [|x l IH]; [reflexivity|]. cbn [filter]. destruct (p x) eqn:P, (q x) eqn:Q; cbn [filter]; rewrite ?P, ?Q, IH; reflexivity.
Qed.
Lemma same_filter (p : metadata -> bool) ts ts' : Forall2 same_view ts ts' ->
  Forall2 same_view (filter (fun v => p (v_item v)) ts) (filter (fun v => p (v_item v)) ts').
Proof.
  induction 1 as [|v w ts ts' S F IH]; [constructor|]. cbn [filter]. rewrite <- (proj1 S).
  destruct (p (v_item v)); [constructor; assumption|exact IH].
Qed.
Lemma same_typs c v w y z : shows_type c v y -> shows_type c w z -> same_view v w -> same_typ y z.
Proof.
  intros (Iy & Cy & My & Ty & Py) (Iz & Cz & Mz & Tz & Pz) (I & C & M & F & T & P).
  apply (without_filter _ (fun m => negb (out c m))) in Cy; [|intros; apply out_true].
  apply (without_filter _ (fun m => negb (out c m))) in My; [|intros; apply out_true].
  apply (without_filter _ (fun m => negb (out c m))) in Cz; [|intros; apply out_true].
  apply (without_filter _ (fun m => negb (out c m))) in Mz; [|intros; apply out_true].
  unfold same_typ, same_calls. rewrite Cy, My, Cz, Mz, Ty, Tz, Py, Pz, Iy, Iz.
  refine (conj I (conj _ (conj _ (conj _ (conj T P))))).
  - now apply Permutation_filter.
  - now apply Permutation_filter.
  - rewrite (filter_filter is_trait_method), F. apply filter_filter.
Qed.
Lemma shows_same c items b b' : shows c items b -> shows c items b' -> same_shown b b'.
Proof.
  intros (a & SA & Fb & vs & Wv & Sv) (a' & SA' & Fb' & vs' & Wv' & Sv').
  destruct (Api_Ready.determined_proof items a a' SA SA') as (PF & ts & PT & FT).
  apply (without_filter _ (fun m => negb (out c m))) in Fb; [|intros; apply out_true].
  apply (without_filter _ (fun m => negb (out c m))) in Fb'; [|intros; apply out_true].
  apply (without_filter _ (fun v => negb (out c (v_item v)))) in Wv; [|intros; apply out_true].
  apply (without_filter _ (fun v => negb (out c (v_item v)))) in Wv'; [|intros; apply out_true].
  split.
  - unfold same_calls. rewrite Fb, Fb'. now apply Permutation_filter.
  - pose proof (Permutation_filter (fun v => negb (out c (v_item v))) _ _ PT) as P. rewrite <- Wv in P.
    destruct (Forall2_perm _ _ _ Sv _ P) as (k & Pk & Fk). exists k. split; [exact Pk|].
    pose proof (same_filter (fun m => negb (out c m)) _ _ FT) as FS. cbn beta in FS. rewrite <- Wv' in FS.
    clear -Fk FS Sv'. revert Fk FS. revert k Sv'. generalize (b_types b').
    generalize (filter (fun v => negb (out c (v_item v))) ts). intros ws bt' k Sv' Fk FS.
    revert k Fk bt' Sv'. induction FS as [|w v ws vs' S FS IH]; intros k Fk bt' Sv'.
    + inversion Fk; subst. inversion Sv'; subst. constructor.
    + inversion Fk as [|? y ? k0 Sy Fy]; subst. inversion Sv' as [|? z ? bt0 Sz Fz]; subst.
      constructor; [exact (same_typs c w v y z Sy Sz S)|exact (IH k0 Fy bt0 Fz)].
Qed.
Lemma both_same_proof : both_same (fun c _ items => no_custom c items).
Proof.
  intros gs r g n c b b' G D P E Hg Hn C PC OD NC EB EB'.
  destruct (pl_start gs r g n G D P E Hg Hn C) as (OG & SA & OW).
  apply (shows_same c (g_items g)).
  - exact (ci_shows_proof g c b OG PC OD (proj2 (proj2 (P g Hg))) NC EB).
  - exact (pl_shows_proof gs r g n c b' G D P E Hg Hn C I EB').
Qed.
