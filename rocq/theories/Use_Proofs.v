(** Proofs about [use] declarations (C58). *)
From Verif Require Import Base Meta_Types Path_Types Path_Spec Path_Model Path_Decide Path_Refute Use_Spec Use_Model Use_Claims.

Lemma self_eq x : is_self x = true -> x = S_ "self".
Proof. unfold is_self. destruct (bytes_eqb_spec x (S_ "self")); congruence. Qed.
Lemma brings_path before x t b : brings before (TPath x t) b <-> brings (before ++ [x]) t b.
Proof. split; [intro H; inversion H; subst; assumption | apply b_path]. Qed.
Lemma brings_group before l b : brings before (TGroup l) b <-> exists t, In t l /\ brings before t b.
Proof.
  split; [intro H; inversion H; subst; eauto | intros (t & A & B); eapply b_group; eauto].
Qed.
Lemma brings_name before x b : is_self x = false -> (brings before (TName x) b <-> b = Named (before ++ [x]) x).
Proof.
  intro S. split; [| intros ->; now apply b_name]. intro H. inversion H; subst; auto.
  vm_compute in S. discriminate.
Qed.
Lemma brings_self before x b : brings (before ++ [x]) (TName (S_ "self")) b <-> b = Named (before ++ [x]) x.
Proof.
  split; [| intros ->; apply b_self]. intro H. inversion H as [| ? ? N | ? ? E | | | |]; subst.
  - vm_compute in N. discriminate.
  - match goal with E : ?a ++ [_] = ?b ++ [_] |- _ => apply app_inj_tail in E as [-> ->] end. reflexivity.
Qed.
Lemma brings_rename before x y b : is_self x = false -> (brings before (TRename x y) b <-> b = Named (before ++ [x]) y).
Proof.
  intro S. split; [| intros ->; now apply b_rename]. intro H. inversion H; subst; auto.
  vm_compute in S. discriminate.
Qed.
Lemma brings_star before b : brings before TStar b <-> b = Starred before.
Proof. split; [intro H; now inversion H | intros ->; apply b_star]. Qed.

Definition first_of (l : list str) : bool := match l with [] => true | _ => false end.
Lemma first_app l x : first_of (l ++ [x]) = false.
Proof. destruct l; reflexivity. Qed.
Lemma last_of (l : list str) : l <> [] -> exists l' y, l = l' ++ [y].
Proof. intro N. destruct (exists_last N) as (l' & y & ->). eauto. Qed.

Lemma flatten_brings v leading t : forall before, proper (first_of before) t = true -> renames_self t = false ->
  exists l, flatten v (Path leading before) t = Some l /\ length l = leaves t /\
    forall m, In m l <-> exists b, brings before t b /\ m = as_made v leading b.
Proof.
  assert (ONE : forall before b0 t, (forall b, brings before t b <-> b = b0) ->
    forall m, In m [as_made v leading b0] <-> exists b, brings before t b /\ m = as_made v leading b).
  { intros before b0 t0 H m. split.
    - intros [<- | []]. exists b0. split; auto. now apply H.
    - intros (b & B & ->). apply H in B as ->. now left. }
  induction t as [x t IH | x | x y | | l IH] using tree_ind'; intros before P R; cbn [flatten lead segs leaves].
  - cbn [proper renames_self] in P, R. destruct (IH (before ++ [x])) as (l & A & B & C); [now rewrite first_app | auto |].
    exists l. split; auto. split; auto. intro m. rewrite C. split; intros (b & D & E); exists b; (split; [|exact E]).
    + now apply brings_path.
    + now apply brings_path in D.
  - cbn [proper] in P. destruct (bytes_eqb x (S_ "self")) eqn:S.
    + apply self_eq in S as ->. destruct before as [| z before'] eqn:B0; [vm_compute in P; discriminate|].
      rewrite <- B0 in *. destruct (last_of before) as (l' & y & ->); [congruence|]. rewrite rev_app_distr. cbn [rev app].
      exists [as_made v leading (Named (l' ++ [y]) y)]. split; [reflexivity|]. split; [reflexivity|].
      apply ONE. apply brings_self.
    + exists [as_made v leading (Named (before ++ [x]) x)]. split; [reflexivity|]. split; [reflexivity|].
      apply ONE. intro b. now apply brings_name.
  - cbn [renames_self] in R. exists [as_made v leading (Named (before ++ [x]) y)]. split; [reflexivity|]. split; [reflexivity|].
    apply ONE. intro b. now apply brings_rename.
  - exists [as_made v leading (Starred before)]. split; [reflexivity|]. split; [reflexivity|].
    apply ONE. apply brings_star.
  - induction l as [| t l IHl].
    + exists []. split; [reflexivity|]. split; [reflexivity|]. intro m. split; [intros []|].
      intros (b & B & _). apply brings_group in B as (t & [] & _).
    + inversion IH as [| ? ? X Y]; subst. cbn [proper renames_self] in P, R. apply andb_true_iff in P as [P Q].
      apply orb_false_iff in R as [R R']. destruct (X before P R) as (a & A1 & A2 & A3).
      destruct (IHl Y Q R') as (b & B1 & B2 & B3). rewrite A1, B1. exists (a ++ b). split; [reflexivity|].
      split; [rewrite app_length; lia|]. intro m. rewrite in_app_iff, A3, B3. split.
      * intros [(c & C & ->) | (c & C & ->)]; exists c; (split; [|reflexivity]); apply brings_group.
        -- exists t. split; [now left | exact C].
        -- apply brings_group in C as (t' & I & C). exists t'. split; [now right | exact C].
      * intros (c & C & ->). apply brings_group in C as (t' & [<- | I] & C).
        -- left. eauto.
        -- right. exists c. split; [|reflexivity]. apply brings_group. eauto.
Qed.
Lemma brings_proof : brings_statement.
Proof. intros v leading t P R. exact (flatten_brings v leading t [] P R). Qed.

Lemma flatten_shape v leading t : forall before,
  match flatten v (Path leading before) t with
  | Some l => length l = leaves t /\ (forall m, In m l -> vis_of m = v /\ lead_of m = leading)
  | None => proper (first_of before) t = false
  end.
Proof.
  induction t as [x t IH | x | x y | | l IH] using tree_ind'; intros before; cbn [flatten lead segs leaves].
  - cbn [proper]. specialize (IH (before ++ [x])). rewrite first_app in IH. exact IH.
  - cbn [proper]. unfold is_self. destruct (bytes_eqb x (S_ "self")) eqn:S.
    + destruct (rev before) as [| y l] eqn:R.
      * assert (before = []) as ->; [|reflexivity]. rewrite <- (rev_involutive before), R. reflexivity.
      * split; [reflexivity|]. intros m [<- | []]. auto.
    + split; [reflexivity|]. intros m [<- | []]. auto.
  - split; [reflexivity|]. intros m [<- | []]. auto.
  - split; [reflexivity|]. intros m [<- | []]. auto.
  - induction l as [| t l IHl]; [split; [reflexivity | intros m []]|].
    inversion IH as [| ? ? X Y]; subst. cbn [proper]. specialize (X before). specialize (IHl Y).
    destruct (flatten v (Path leading before) t) as [a|]; [|now rewrite X].
    match goal with |- match match ?g with _ => _ end with _ => _ end => destruct g as [b|] end.
    + destruct X as [X1 X2], IHl as [I1 I2]. split; [rewrite app_length; lia|].
      intros m I. apply in_app_iff in I as [I | I]; auto.
    + cbn [proper] in IHl. rewrite IHl. apply andb_false_r.
Qed.
Lemma shape_proof : shape_statement.
Proof. intros v leading t. exact (flatten_shape v leading t []). Qed.

Definition the_tree : tree := TPath (S_ "foo") (TGroup [TRename (S_ "self") (S_ "bar")]).
Lemma rename_self_refuted_ : ~ rename_self_statement.
Proof.
  intro H. destruct (H Private false the_tree eq_refl) as (l & A & B). vm_compute in A. injection A as <-.
  destruct (B (as_made Private false (Named [S_ "foo"] (S_ "bar")))) as [_ C].
  destruct C as [C | []]; [|vm_compute in C; discriminate].
  exists (Named [S_ "foo"] (S_ "bar")). split; [|reflexivity]. apply b_path. apply b_group with (t := TRename (S_ "self") (S_ "bar")); [now left|].
  apply b_rename_self. discriminate.
Qed.
Lemma refused_refuted_ : ~ refused_statement.
Proof. intro H. specialize (H Private false (TRename (S_ "self") (S_ "me")) eq_refl). vm_compute in H. discriminate. Qed.

Definition mod_foo := it_ 1 "foo" Private (KModule 1).
Definition used_foo := Item (Src 2) (S_ "bar") None Private (KUse (p_ ["foo"; "self"]%string)).
Definition self_crate : ir := Ir [(0, [mod_foo; used_foo]); (1, [])]%nat [(S_ "k", root0)].
Lemma lookup_refuted_ : ~ lookup_statement.
Proof.
  intro H.
  specialize (H self_crate 20%nat root0 (S_ "k") (S_ "foo") mod_foo (S_ "bar") [used_foo] 2%nat
    (MUse Private (p_ ["foo"; "self"]%string) (S_ "bar"))).
  destruct (lookup self_crate 20 [root0] (Path false [S_ "bar"]) NsType fresh) as [[o c]|] eqn:E; [|vm_compute in E; discriminate].
  specialize (H o c eq_refl eq_refl eq_refl eq_refl eq_refl eq_refl eq_refl eq_refl).
  subst o. vm_compute in E. discriminate.
Qed.
