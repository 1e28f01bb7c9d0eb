(** Where the two builders differ, or say something else than the items (C62). *)
From Verif Require Import Base Meta_Types Group_Model Api_Types Api_Spec Api_Model Api_Claims.
From Verif Require Import Univ_Model Univ_Spec.
From Coq Require Import Permutation Sorted.
Local Open Scope string_scope.
Local Open Scope list_scope.

Definition fn_ (mp n : string) (args : list ty) (ret : option ty) : fn_meta :=
  Fn (S_ mp) (S_ n) None false (map (fun t => Param (S_ "x") t ByValue None) args) ret None (Some 1%Z) None.
Definition rec_ (mp n : string) : metadata := MRecord (Rec (S_ mp) (S_ n) None [] None).
Definition enum_ (mp n : string) : metadata := MEnum (Enum (S_ mp) (S_ n) None ShEnum None [] false None).
Definition obj_ (mp n : string) : metadata := MObject (Obj (S_ mp) (S_ n) None IStruct None).

(** Every two of a few items. *)
Ltac items_cases :=
  repeat match goal with
         | H : In ?x (_ :: _) |- _ => destruct H as [H | H]; [first [subst x | discriminate H | idtac]|]
         | H : In _ [] |- _ => destruct H
         | H : In _ (_ ++ _) |- _ => apply in_app_or in H
         | H : _ \/ _ |- _ => destruct H
         | H : False |- _ => destruct H
         end.
Ltac plain_tac :=
  let self := fresh in let f := fresh in let K := fresh in
  intros self f K;
  repeat (hnf in K; destruct K as [K | K]; [first [discriminate K | injection K as <- <-; reflexivity]|]);
  hnf in K; destruct K.
Ltac no_dash_tac :=
  let J := fresh in intros J; vm_compute in J; repeat (destruct J as [J | J]; [discriminate J|]); destruct J.

(** Two objects of one name. *)
Definition two_objects : group := Group (S_ "a") (S_ "a")
  [obj_ "a" "O"; obj_ "a::b" "O"; MMethod (S_ "O") (fn_ "a" "run" [] None)].

Lemma objects_refuted : ~ interface_true numbered.
Proof.
  intros H.
  assert (G : of_group two_objects).
  { split; [repeat constructor; cbn; intuition discriminate|]. intros m K. cbn [g_items two_objects] in K. items_cases;
      (split; [eexists; split; [reflexivity | vm_compute; reflexivity] | reflexivity]). }
  assert (S := H two_objects _ G ltac:(plain_tac) ltac:(intros n; constructor) eq_refl).
  destruct S as (_ & N & _). vm_compute in N. inversion N as [|? ? X]; subst. apply X. left. reflexivity.
Qed.

(** ** What the pipeline tells otherwise *)

(** A method without a type. *)
Definition orphan : group := Group (S_ "a") (S_ "a") [MMethod (S_ "O") (fn_ "a" "run" [] None)].

Lemma one_group g : of_group g -> grouped [g].
Proof.
  intros G. split.
  - cbn [map]. constructor; [intros [] | constructor].
  - constructor; [exact G | constructor].
Qed.

Ltac of_group_tac :=
  split; [repeat constructor; cbn; intuition discriminate|];
  let m := fresh in let K := fresh in intros m K; cbn [g_items] in K; items_cases;
  (split; [eexists; split; [reflexivity | vm_compute; reflexivity] | reflexivity]).
Ltac no_dashes_tac :=
  split; [ let g := fresh in let K := fresh in intros g K; items_cases; no_dash_tac
         | let m := fresh in let t := fresh in let c := fresh in let K := fresh in let T := fresh in let C := fresh in
           intros m t c K T C; cbn [all_items flat_map g_items app] in K; items_cases;
           vm_compute in T; items_cases; subst t; vm_compute in C; items_cases; subst c; no_dash_tac ].

Lemma orphan_group : of_group orphan.
Proof. unfold orphan. of_group_tac. Qed.

Lemma orphans_refuted : ~ pipeline_true (fun items => types_differ items /\ numbered items).
Proof.
  intros H.
  destruct (H [orphan] _ (one_group _ orphan_group) ltac:(unfold orphan; no_dashes_tac)
              ltac:(intros g K; items_cases; split; [intros d d' J J' D; cbn [g_items orphan] in J; items_cases; exfalso; apply D; reflexivity | intros n; constructor])
              eq_refl) as [_ S].
  assert (X := S _ _ (or_introl eq_refl) (or_introl eq_refl) eq_refl).
  destruct X as (_ & _ & _ & _ & X). destruct (X _ (or_introl eq_refl) ltac:(discriminate)) as (v & V & _).
  vm_compute in V. exact V.
Qed.

(** A record and an enum of one name. *)
Definition two_kinds : group := Group (S_ "a") (S_ "a") [rec_ "a" "T"; enum_ "a" "T"].
Lemma two_kinds_group : of_group two_kinds.
Proof. unfold two_kinds. of_group_tac. Qed.

Lemma kinds_refuted : ~ pipeline_true (fun items => owned items /\ numbered items).
Proof.
  intros H.
  destruct (H [two_kinds] _ (one_group _ two_kinds_group) ltac:(unfold two_kinds; no_dashes_tac)
              ltac:(intros g K; items_cases; split; [intros m r J R; cbn [g_items two_kinds] in J; items_cases; discriminate R | intros n; constructor])
              eq_refl) as [_ S].
  assert (X := S _ _ (or_introl eq_refl) (or_introl eq_refl) eq_refl).
  destruct X as (_ & N & _). vm_compute in N. inversion N as [|? ? X]; subst. apply X. left. reflexivity.
Qed.

(** A function that was given the name of a type: in Rust the type [T] and the function [f], which is
    called [T] in the bindings. *)
Definition like_a_type : group := Group (S_ "a") (S_ "a")
  [rec_ "a" "T";
   MFunc (Fn (S_ "a") (S_ "T") (Some (S_ "f")) false [Param (S_ "x") (TRecord (S_ "a") (S_ "T")) ByValue None] None None (Some 1%Z) None)].
Lemma like_a_type_group : of_group like_a_type.
Proof. unfold like_a_type. of_group_tac. Qed.

Lemma functions_refuted : ~ types_true no_dashes types_differ.
Proof.
  intros H.
  assert (ND : no_dashes [like_a_type]) by (unfold like_a_type; no_dashes_tac).
  assert (TD : forall g, In g [like_a_type] -> types_differ (g_items g)).
  { intros g K; items_cases; intros d d' J J' D E; cbn [g_items like_a_type] in J, J'; items_cases;
      try (left; reflexivity); try (exfalso; apply D; reflexivity); discriminate E. }
  assert (W := H [like_a_type] _ _ (one_group _ like_a_type_group) ND TD eq_refl (or_introl eq_refl)).
  destruct W as [F _]. vm_compute in F. inversion F as [|? ? X _]; subst. cbn in X. inversion X as [|? ? ? ? T _]; subst.
  inversion T as [ | |? ? ? ? [_ N]| | | | | | | | ]; subst. specialize (N (rec_ "a" "T") (or_introl eq_refl) eq_refl). vm_compute in N. discriminate.
Qed.

(** A dash in the path of a type. *)
Definition dashed : group := Group (S_ "a_b") (S_ "a")
  [MFunc (fn_ "a_b" "f" [TRecord (S_ "a-b") (S_ "T")] None)].
Lemma dashed_group : of_group dashed.
Proof. unfold dashed. of_group_tac. Qed.

Lemma dashes_refuted :
  ~ types_true (fun gs => forall g, In g gs -> no_dash (g_crate g)) (fun items => types_differ items /\ functions_differ items).
Proof.
  intros H.
  assert (ND : forall g, In g [dashed] -> no_dash (g_crate g)) by (intros g K; items_cases; no_dash_tac).
  assert (TD : forall g, In g [dashed] -> types_differ (g_items g) /\ functions_differ (g_items g)).
  { intros g K; items_cases; split;
      [intros d d' J J' D; cbn [g_items dashed] in J; items_cases; exfalso; apply D; reflexivity
      | intros f d J J' E; cbn [g_items dashed] in J'; items_cases; discriminate E]. }
  assert (W := H [dashed] _ _ (one_group _ dashed_group) ND TD eq_refl (or_introl eq_refl)).
  destruct W as [F _]. vm_compute in F. inversion F as [|? ? X _]; subst. cbn in X. inversion X as [|? ? ? ? T _]; subst.
  inversion T as [ | |? ? ? ? [(g & G & C & _) _]| | | | | | | | ]; subst. items_cases. vm_compute in C. discriminate.
Qed.

(** ** What one accepts and the other refuses *)

(** A constructor of a record. *)
Definition made : group := Group (S_ "a") (S_ "a") [rec_ "a" "R"; MConstructor (S_ "R") (fn_ "a" "new" [] None)].
Lemma made_group : of_group made.
Proof. unfold made. of_group_tac. Qed.

Lemma constructors_refuted :
  ~ interface_accepts (fun items => owned items /\ types_differ items /\ functions_differ items /\ numbered items /\ members_differ items).
Proof.
  intros H.
  destruct (H [made] _ made (one_group _ made_group) ltac:(unfold made; no_dashes_tac)
              ltac:(intros m t c K T; cbn [all_items flat_map g_items made app] in K; items_cases; vm_compute in T; items_cases)
              ltac:(intros g K; items_cases; split; [unfold made; plain_tac|]; cbn [g_items made]; refine (conj _ (conj _ (conj _ (conj _ _))));
                    [ intros m r J R; items_cases; [discriminate|]; exists (rec_ "a" "R"); injection R as <-;
                      refine (conj (or_introl eq_refl) (conj _ (conj eq_refl Logic.I))); discriminate
                    | intros d d' J J' D E; items_cases; try (left; reflexivity); try (exfalso; apply D; reflexivity); discriminate E
                    | intros f d J J' E; items_cases; discriminate E
                    | intros n; constructor
                    | intros m m' J J' R E W L; items_cases; try reflexivity; try (exfalso; apply R; reflexivity); discriminate ])
              eq_refl (or_introl eq_refl)) as (a & A).
  vm_compute in A. discriminate.
Qed.

(** A function with the name of a type. *)
Definition named_twice : group := Group (S_ "a") (S_ "a") [rec_ "a" "T"; MFunc (fn_ "a" "T" [] None)].
Lemma named_twice_group : of_group named_twice.
Proof. unfold named_twice. of_group_tac. Qed.
Lemma function_names_refuted : ~ interface_accepts (fun items => owned items /\ types_differ items /\ numbered items).
Proof.
  intros H.
  destruct (H [named_twice] _ named_twice (one_group _ named_twice_group) ltac:(unfold named_twice; no_dashes_tac)
              ltac:(intros m t c K T; cbn [all_items flat_map g_items named_twice app] in K; items_cases; vm_compute in T; items_cases)
              ltac:(intros g K; items_cases; split; [unfold named_twice; plain_tac|]; cbn [g_items named_twice]; refine (conj _ (conj _ _));
                    [ intros m r J R; items_cases; discriminate
                    | intros d d' J J' D E; items_cases; try (left; reflexivity); try (exfalso; apply D; reflexivity); discriminate E
                    | intros n; constructor ])
              eq_refl (or_introl eq_refl)) as (a & A).
  vm_compute in A. discriminate.
Qed.

(** A type of a crate that is not there. *)
Definition elsewhere : group := Group (S_ "a") (S_ "a") [MFunc (fn_ "a" "f" [TRecord (S_ "b") (S_ "T")] None)].
Lemma elsewhere_group : of_group elsewhere.
Proof. unfold elsewhere. of_group_tac. Qed.
Lemma crates_refuted : ~ pipeline_accepts (fun gs => no_dashes gs /\ NoDup (map g_namespace gs))
                           (fun items => objects_differ items /\ members_differ items /\ not_mixed items).
Proof.
  intros H.
  destruct (H [elsewhere] (one_group _ elsewhere_group)
              ltac:(split; [unfold elsewhere; no_dashes_tac | repeat constructor; intros []])
              ltac:(intros g K; items_cases; refine (conj _ (conj (conj _ (conj _ _)) _));
                    [ unfold elsewhere; plain_tac
                    | intros m m' J J' E; cbn [g_items elsewhere] in J, J'; items_cases; exact Logic.I
                    | intros m m' J J' R; cbn [g_items elsewhere] in J; items_cases; exfalso; apply R; reflexivity
                    | intros m m' J J' R; cbn [g_items elsewhere] in J; items_cases; discriminate
                    | eexists; reflexivity ])) as (r & R).
  vm_compute in R. discriminate.
Qed.

(** Two crates of one namespace. *)
Definition first_crate : group := Group (S_ "a") (S_ "n") [].
Definition second_crate : group := Group (S_ "b") (S_ "n") [].
Lemma two_crates : grouped [first_crate; second_crate].
Proof.
  split.
  - cbn [map]. constructor; [intros [E | []]; vm_compute in E; discriminate E | constructor; [intros [] | constructor]].
  - constructor; [|constructor; [|constructor]]; (split; [constructor | intros m []]).
Qed.
Lemma namespaces_refuted : ~ pipeline_accepts (fun gs => no_dashes gs /\ crates_there gs)
                           (fun items => objects_differ items /\ members_differ items /\ not_mixed items).
Proof.
  intros H.
  destruct (H [first_crate; second_crate]
              two_crates
              ltac:(split; [unfold first_crate, second_crate; no_dashes_tac | intros m t c []])
              ltac:(intros g K; items_cases; refine (conj _ (conj (conj _ (conj _ _)) _)); try (intros ? ? []); eexists; reflexivity)) as (r & R).
  vm_compute in R. discriminate.
Qed.

(** Two methods of one name: of an object that implements two exported traits. *)
Definition twice : group := Group (S_ "a") (S_ "a")
  [obj_ "a" "O"; MMethod (S_ "O") (fn_ "a" "run" [] None); MMethod (S_ "O") (fn_ "a" "run" [TU8] None)].
Lemma twice_group : of_group twice.
Proof. unfold twice. of_group_tac. Qed.
Lemma members_refuted : ~ pipeline_accepts (fun gs => no_dashes gs /\ crates_there gs /\ NoDup (map g_namespace gs))
                           (fun items => objects_differ items /\ not_mixed items).
Proof.
  intros H.
  destruct (H [twice] (one_group _ twice_group)
              ltac:(refine (conj _ (conj _ _));
                    [ unfold twice; no_dashes_tac
                    | intros m t c K T C; cbn [all_items flat_map g_items twice app] in K; items_cases; vm_compute in T; items_cases; subst t; vm_compute in C; destruct C
                    | repeat constructor; intros [] ])
              ltac:(intros g K; items_cases; refine (conj _ (conj (conj _ _) _));
                    [ unfold twice; plain_tac
                    | intros m m' J J' E; cbn [g_items twice] in J, J'; items_cases; exact Logic.I || reflexivity
                    | intros m m' J J' R R'; cbn [g_items twice] in J'; items_cases; discriminate
                    | eexists; reflexivity ])) as (r & R).
  vm_compute in R. discriminate.
Qed.

(** Methods of an object beside methods of a trait of that name. *)
Definition mixed : group := Group (S_ "a") (S_ "a")
  [obj_ "a" "O"; MMethod (S_ "O") (fn_ "a" "run" [] None); MTraitMethod (S_ "O") 0%Z (fn_ "a" "stop" [] None)].
Lemma mixed_group : of_group mixed.
Proof. unfold mixed. of_group_tac. Qed.
Lemma mixed_refuted : ~ pipeline_accepts (fun gs => no_dashes gs /\ crates_there gs /\ NoDup (map g_namespace gs))
                           (fun items => objects_differ items /\ members_differ items).
Proof.
  intros H.
  destruct (H [mixed] (one_group _ mixed_group)
              ltac:(refine (conj _ (conj _ _));
                    [ unfold mixed; no_dashes_tac
                    | intros m t c K T C; cbn [all_items flat_map g_items mixed app] in K; items_cases; vm_compute in T; items_cases; subst t; vm_compute in C; destruct C
                    | repeat constructor; intros [] ])
              ltac:(intros g K; items_cases; refine (conj _ (conj (conj _ _) _));
                    [ unfold mixed; plain_tac
                    | intros m m' J J' E; cbn [g_items mixed] in J, J'; items_cases; exact Logic.I || reflexivity
                    | intros m m' J J' R R' W L; cbn [g_items mixed] in J, J'; items_cases; try reflexivity; try (exfalso; apply R; reflexivity); discriminate
                    | eexists; reflexivity ])) as (r & R).
  vm_compute in R. discriminate.
Qed.
