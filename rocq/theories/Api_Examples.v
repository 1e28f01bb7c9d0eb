(** Concrete cases for C62: two crates. *)
From Verif Require Import Base Meta_Types Group_Model Api_Types Api_Spec Api_Model Api_Claims Api_Refute Api_Ready.
From Verif Require Import Univ_Model Univ_Spec.
From Coq Require Import Permutation Sorted.
Local Open Scope string_scope.
Local Open Scope list_scope.

(** A record that has another name in Rust, an object with members, a trait that is implemented in the
    foreign language, a custom type declared in UDL and in Rust, and a function with types of both crates. *)
Definition crate_a : group := Group (S_ "a") (S_ "space_a")
  [MRecord (Rec (S_ "a::m") (S_ "R") (Some (S_ "RustR")) [Field (S_ "f") None (TSeq TU8) None None] None);
   obj_ "a" "O";
   MConstructor (S_ "O") (fn_ "a" "new" [TRecord (S_ "a::m") (S_ "R")] None);
   MMethod (S_ "O") (fn_ "a" "run" [] (Some (TOption (TRecord (S_ "b") (S_ "S")))));
   MCallback (S_ "a") (S_ "C") None;
   MTraitMethod (S_ "C") 0%Z (fn_ "a" "first" [TBool] None);
   MTraitMethod (S_ "C") 1%Z (fn_ "a" "second" [] None);
   MCustom (S_ "a") (S_ "Url") TString None;
   MCustom (S_ "a") (S_ "Url") TString (Some (S_ "An address"));
   MUniffiTrait (UTDisplay (S_ "O") (fn_ "a" "fmt" [] (Some TString)));
   MFunc (fn_ "a" "f" [TCustom (S_ "a") (S_ "Url") TString; TRecord (S_ "a::m") (S_ "R")] None)].
Definition crate_b : group := Group (S_ "b") (S_ "space_b")
  [rec_ "b" "S"; MFunc (fn_ "b" "g" [TObject (S_ "a") (S_ "O") IStruct] None)].
Definition crates : list group := [crate_a; crate_b].

Lemma crate_a_group : of_group crate_a.
Proof. unfold crate_a. of_group_tac. Qed.
Lemma crate_b_group : of_group crate_b.
Proof. unfold crate_b. of_group_tac. Qed.
Example crates_grouped : grouped crates.
Proof.
  split.
  - cbn [map crates]. constructor; [intros [E | []]; vm_compute in E; discriminate E | constructor; [intros [] | constructor]].
  - constructor; [exact crate_a_group | constructor; [exact crate_b_group | constructor]].
Qed.
Example crates_no_dashes : no_dashes crates.
Proof. unfold crates, crate_a, crate_b. no_dashes_tac. Qed.
Example crates_all_there : crates_there crates.
Proof.
  intros m t c K T C. cbn [crates all_items flat_map g_items crate_a crate_b app] in K. items_cases;
    vm_compute in T; items_cases; subst t; vm_compute in C; items_cases; subst c; vm_compute; auto.
Qed.
Example crates_spaces : NoDup (map g_namespace crates).
Proof. cbn [map crates]. constructor; [intros [E | []]; vm_compute in E; discriminate E | constructor; [intros [] | constructor]]. Qed.

Ltac each_crate :=
  let g := fresh in let K := fresh in intros g K; destruct K as [<- | [<- | []]]; cbn [g_items crate_a crate_b].
Example crates_plain : forall g, In g crates -> plain_constructors (g_items g).
Proof. each_crate; plain_tac. Qed.
Example crates_objects : forall g, In g crates -> objects_differ (g_items g).
Proof. each_crate; intros m m' J J' E; items_cases; exact Logic.I || reflexivity. Qed.
Example crates_numbered : forall g, In g crates -> numbered (g_items g).
Proof.
  each_crate; intros n; unfold numbers; cbn [flat_map app]; [|constructor].
  destruct (Meta_Eq.str_eq_dec (S_ "C") n); cbn [app]; repeat constructor.
Qed.
Example crates_members : forall g, In g crates -> members_differ (g_items g).
Proof.
  each_crate; intros m m' J J' R E W L; items_cases; try reflexivity; try (exfalso; apply R; reflexivity); try discriminate E; try discriminate W;
    vm_compute in L; discriminate L.
Qed.
Example crates_not_mixed : forall g, In g crates -> not_mixed (g_items g).
Proof.
  each_crate; intros m m' J J' R R' W; items_cases; try discriminate R; try discriminate R'; vm_compute in W; discriminate W.
Qed.
Example crates_types : forall g, In g crates -> types_differ (g_items g).
Proof.
  each_crate; intros d d' J J' D E; items_cases; try (left; reflexivity); try (exfalso; apply D; reflexivity); try discriminate E;
    right; do 5 eexists; (split; reflexivity).
Qed.
Example crates_functions : forall g, In g crates -> functions_differ (g_items g).
Proof.
  each_crate; intros f d J J' E; items_cases;
    match goal with X : MFunc _ = MFunc _ |- _ => injection X as <- end; vm_compute in E; discriminate E.
Qed.
Example crates_owned : forall g, In g crates -> owned (g_items g).
Proof.
  each_crate; intros m r J R; items_cases; try discriminate R; injection R as <-;
    first [ exists (obj_ "a" "O"); split; [cbn [In]; auto|]; refine (conj _ (conj eq_refl Logic.I)); discriminate
          | exists (MCallback (S_ "a") (S_ "C") None); split; [cbn [In]; auto 10|]; refine (conj _ (conj eq_refl Logic.I)); discriminate ].
Qed.
Example crates_accepted : forall g, In g crates -> accepted g.
Proof. each_crate; eexists; vm_compute; reflexivity. Qed.

(** The record has its name in Rust, and types name the namespaces of their crates. *)
Example tree_function : match pipeline crates with
  | Ok [na; nb] =>
      n_name na = S_ "space_a" /\ n_name nb = S_ "space_b" /\
      a_functions (n_api na) =
        [(MFunc (fn_ "a" "f" [TCustom (S_ "a") (S_ "Url") TString; TRecord (S_ "a::m") (S_ "R")] None),
          [ICustom (S_ "space_a") (S_ "Url") (S_ "Url") (IBase TString); IRecord (S_ "space_a") (S_ "R") (S_ "RustR")])] /\
      a_functions (n_api nb) =
        [(MFunc (fn_ "b" "g" [TObject (S_ "a") (S_ "O") IStruct] None),
          [IInterface (S_ "space_a") (S_ "O") (S_ "O") IStruct])] /\
      length (a_types (n_api na)) = 4%nat
  | _ => False
  end.
Proof. vm_compute. repeat split. Qed.

(** The custom type has the docs of the second declaration; the trait has its methods in order. *)
Example interface_custom : match interface (g_items crate_a) with
  | Ok a => In (View (MCustom (S_ "a") (S_ "Url") TString (Some (S_ "An address"))) [] [] [] []) (a_types a) /\
            In (View (MCallback (S_ "a") (S_ "C") None) []
                  [MTraitMethod (S_ "C") 0%Z (fn_ "a" "first" [TBool] None);
                   MTraitMethod (S_ "C") 1%Z (fn_ "a" "second" [] None)] [] []) (a_types a)
  | _ => False
  end.
Proof. vm_compute. auto 10. Qed.

(** All of the theorems apply. *)
Example crates_ready : exists r, pipeline crates = Ok r.
Proof.
  apply pipeline_accepts_proof; [exact crates_grouped | exact (conj crates_no_dashes (conj crates_all_there crates_spaces))|].
  intros g J. exact (conj (crates_plain g J) (conj (conj (crates_objects g J) (conj (crates_members g J) (crates_not_mixed g J))) (crates_accepted g J))).
Qed.
Example crates_agree : forall r, pipeline crates = Ok r -> Permutation (map space_shown r) [(S_ "a", S_ "space_a"); (S_ "b", S_ "space_b")].
Proof.
  intros r H. apply (builders_agree_proof crates r crates_grouped crates_no_dashes).
  - intros g J. exact (conj (crates_plain g J) (conj (crates_objects g J) (crates_numbered g J))).
  - exact crates_accepted.
  - exact H.
Qed.
Example crates_say : forall r n, pipeline crates = Ok r -> In n r -> n_crate n = S_ "a" -> says (g_items crate_a) (api_map fst (n_api n)).
Proof.
  intros r n H K C. apply (proj2 (pipeline_true_proof crates r crates_grouped crates_no_dashes
    (fun g J => conj (crates_owned g J) (conj (crates_types g J) (crates_numbered g J))) H) crate_a n (or_introl eq_refl) K C).
Qed.
Example crates_typed : forall r n, pipeline crates = Ok r -> In n r -> well_typed crates (n_api n).
Proof.
  intros r n H K. exact (types_true_proof crates r n crates_grouped crates_no_dashes
    (fun g J => conj (crates_types g J) (crates_functions g J)) H K).
Qed.
