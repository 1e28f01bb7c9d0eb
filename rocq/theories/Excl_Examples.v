(** Concrete cases for C63. *)
From Verif Require Import Base Meta_Types Group_Model Api_Types Api_Spec Api_Model Api_Claims Api_Refute.
From Verif Require Import Reach_Spec Univ_Spec Excl_Types Excl_Spec Excl_Model Excl_Claims Excl_Basics Excl_Refute Excl_Proofs.
From Coq Require Import Permutation Sorted.
Local Open Scope string_scope.
Local Open Scope list_scope.

(** An object with members, a trait implemented in the foreign language, a custom type, a record, and a
    record and a function that nothing else needs. *)
Definition ex : group := Group (S_ "a") (S_ "space")
  [rec_ "a::m" "R"; obj_ "a" "O";
   MConstructor (S_ "O") (fn_ "a" "new" [TRecord (S_ "a::m") (S_ "R")] None);
   MMethod (S_ "O") (fn_ "a" "run" [] (Some (TOption (TRecord (S_ "a") (S_ "R")))));
   MMethod (S_ "O") (fn_ "a" "stop" [] None);
   MCallback (S_ "a") (S_ "C") None;
   MTraitMethod (S_ "C") 0%Z (fn_ "a" "first" [TBool] None);
   MTraitMethod (S_ "C") 1%Z (fn_ "a" "second" [] None);
   MCustom (S_ "a") (S_ "Url") TString None;
   MUniffiTrait (UTEq (S_ "O") (fn_ "a" "eq" [] (Some TBool)) (S_ "O") (fn_ "a" "ne" [] (Some TBool)));
   rec_ "a" "Secret"; MFunc (fn_ "a" "reveal" [TRecord (S_ "a") (S_ "Secret")] None);
   MFunc (fn_ "a" "f" [TCustom (S_ "a") (S_ "Url") TString] None)].
Definition ex_conf : conf := Conf [S_ "Secret"; S_ "reveal"; S_ "O.stop"] [(S_ "C", S_ "c"); (S_ "R", S_ "Rec")].

Lemma ex_group : of_group ex.
Proof. unfold ex. of_group_tac. Qed.
Lemma ex_plain : plain_constructors (g_items ex).
Proof. cbn [g_items ex]. plain_tac. Qed.
Lemma ex_objects : objects_differ (g_items ex).
Proof. cbn [g_items ex]. objects_tac. Qed.
Lemma ex_numbered : numbered (g_items ex).
Proof. cbn [g_items ex]. numbered_tac. Qed.
Lemma ex_custom : no_custom ex_conf (g_items ex).
Proof.
  intros mp n b doc J. cbn [g_items ex] in J. items_cases; injection J as <- <- <- <-. intros K. cbn [excluded ex_conf] in K.
  items_cases; match goal with E : _ = S_ "Url" |- _ => vm_compute in E; discriminate E end.
Qed.
Lemma ex_keeps : keeps_traits ex_conf (g_items ex).
Proof.
  intros m mp n n' J F D K. cbn [g_items ex] in J. items_cases; cbn in F; items_cases; try discriminate F;
    injection D as <- <-; vm_compute in K; destruct K as [K | [K | []]]; try discriminate K. injection K as <-. reflexivity.
Qed.
Lemma ex_whole : whole_traits ex_conf (g_items ex).
Proof.
  intros m d J J' F W R (k & E & K). cbn [g_items ex] in J, J'. cbn [excluded ex_conf] in K.
  assert (m = MMethod (S_ "O") (fn_ "a" "stop" [] None)).
  { clear J' F W. items_cases; try match goal with K : role_of _ = Some _ |- _ => discriminate K end;
      vm_compute in E; try discriminate E; reflexivity. }
  subst m. clear E K J R. items_cases; cbn in F; items_cases; try discriminate.
Qed.
Lemma ex_eq : eq_whole (g_items ex).
Proof. intros s e s' n J. cbn [g_items ex] in J. items_cases. injection J as <- <- <- <-. split; reflexivity. Qed.
Ltac inside_any := repeat match goal with
  | H : inside _ (TOption _) |- _ => inversion H; subst; clear H
  | H : inside _ (TRecord _ _) |- _ => inversion H; subst; clear H
  | H : inside _ (TObject _ _ _) |- _ => inversion H; subst; clear H
  | H : inside _ (TCallback _ _) |- _ => inversion H; subst; clear H
  | H : inside _ (TCustom _ _ _) |- _ => inversion H; subst; clear H
  | H : inside _ TString |- _ => inversion H; subst; clear H
  | H : inside _ TBool |- _ => inversion H; subst; clear H end.
Lemma ex_closed : items_closed (S_ "a") (g_items ex).
Proof.
  intros m t u n J T I E. cbn [g_items ex] in J. items_cases; vm_compute in T; items_cases; subst t; inside_any;
    try discriminate E; vm_compute in E; injection E as <-;
    first [ exists (rec_ "a::m" "R"); split; [cbn [g_items ex In]; auto 20 | reflexivity]
          | exists (obj_ "a" "O"); split; [cbn [g_items ex In]; auto 20 | reflexivity]
          | exists (MCallback (S_ "a") (S_ "C") None); split; [cbn [g_items ex In]; auto 20 | reflexivity]
          | exists (MCustom (S_ "a") (S_ "Url") TString None); split; [cbn [g_items ex In]; auto 20 | reflexivity]
          | exists (rec_ "a" "Secret"); split; [cbn [g_items ex In]; auto 20 | reflexivity] ].
Qed.
Lemma ex_nested : never_nested ex_conf (S_ "a") (g_items ex).
Proof.
  intros m t u J T I (w & n & W & E & K). cbn [g_items ex] in J. items_cases; vm_compute in T; items_cases; subst t; inside_any;
    try discriminate E; exists n; (split; [exact E | exact K]) ||
    (exfalso; vm_compute in E; injection E as <-; vm_compute in K; items_cases; discriminate).
Qed.
Lemma ex_unused : unused ex_conf (S_ "a") (g_items ex).
Proof.
  intros m t (J & L & _) T (w & n & W & E & K). cbn [g_items ex] in J.
  items_cases;
    try (apply L; eexists; split; [reflexivity | cbn [excluded ex_conf In]; auto; fail]);
    vm_compute in T; items_cases; subst t; inside_any; try discriminate E; vm_compute in E; injection E as <-;
    vm_compute in K; items_cases; discriminate.
Qed.
Lemma ex_owned : owned (g_items ex).
Proof.
  cbn [g_items ex]. owned_tac;
    first [ exists (obj_ "a" "O"); split; [cbn [In]; auto|]; refine (conj _ (conj eq_refl Logic.I)); discriminate
          | exists (MCallback (S_ "a") (S_ "C") None); split; [cbn [In]; auto 10|]; refine (conj _ (conj eq_refl Logic.I)); discriminate ].
Qed.
Lemma ex_types : types_differ (g_items ex).
Proof. cbn [g_items ex]. differ_tac. Qed.
Lemma ex_pl : forall g, In g [ex] -> owned (g_items g) /\ types_differ (g_items g) /\ numbered (g_items g).
Proof. intros g [<- | []]. exact (conj ex_owned (conj ex_types ex_numbered)). Qed.
Lemma ex_dashes : no_dashes [ex].
Proof.
  split; [intros g K; items_cases; no_dash_tac|].
  intros m t c K T C. cbn [all_items flat_map g_items app ex] in K. items_cases; vm_compute in T; items_cases; subst t;
    vm_compute in C; items_cases; subst c; no_dash_tac.
Qed.

(** Both make bindings of it, *)
Example ex_kotlin : exists b, ci_bindings ex_conf (g_items ex) = Ok b /\
  shows ex_conf (g_items ex) b /\ needs_only ex_conf (g_items ex) b /\ tables (g_items ex) b /\ closed (S_ "a") b.
Proof.
  ci_of ex_conf ex EB. eexists. split; [exact EB|].
  refine (conj _ (conj _ (conj _ _))).
  - exact (ci_shows_proof ex ex_conf _ ex_group ex_plain ex_objects ex_numbered ex_custom EB).
  - exact (ci_needs_proof ex ex_conf _ ex_group ex_plain ex_objects ex_numbered ex_keeps EB).
  - exact (ci_tables_proof ex ex_conf _ ex_group ex_plain ex_objects ex_numbered (conj ex_keeps ex_whole) EB).
  - exact (ci_closed_proof ex ex_conf _ ex_group ex_plain ex_objects ex_numbered
             (conj ex_custom (conj ex_closed (conj ex_unused ex_nested))) EB).
Qed.
Example ex_python : exists n b, pipeline [ex] = Ok [n] /\ pl_bindings ex_conf n = Ok b /\
  shows ex_conf (g_items ex) b /\ calls b /\ links (g_items ex) b /\ tables (g_items ex) b /\ closed (S_ "a") b.
Proof.
  pl_of ex_conf ex EP EB. do 2 eexists. split; [exact EP|]. split; [exact EB|].
  pose proof (one_group _ ex_group) as G. pose proof (or_introl eq_refl : In ex [ex]) as Hg.
  refine (conj _ (conj _ (conj _ (conj _ _)))).
  - exact (pl_shows_proof [ex] _ ex _ ex_conf _ G ex_dashes ex_pl EP Hg (or_introl eq_refl) eq_refl Logic.I EB).
  - exact (proj1 (pl_calls_proof [ex] _ ex _ ex_conf _ G ex_dashes ex_pl EP Hg (or_introl eq_refl) eq_refl ex_eq EB)).
  - exact (pl_links_proof [ex] _ ex _ ex_conf _ G ex_dashes ex_pl EP Hg (or_introl eq_refl) eq_refl ex_eq EB).
  - exact (pl_tables_proof [ex] _ ex _ ex_conf _ G ex_dashes ex_pl EP Hg (or_introl eq_refl) eq_refl Logic.I EB).
  - exact (pl_closed_proof [ex] _ ex _ ex_conf _ G ex_dashes ex_pl EP Hg (or_introl eq_refl) eq_refl
             (conj ex_closed (conj ex_unused ex_nested)) EB).
Qed.
(** and they show the same. *)
Example ex_same : forall n b b', pipeline [ex] = Ok [n] -> ci_bindings ex_conf (g_items ex) = Ok b ->
  pl_bindings ex_conf n = Ok b' -> n_crate n = S_ "a" -> same_shown b b'.
Proof.
  intros n b b' EP E E' C.
  exact (both_same_proof [ex] _ ex n ex_conf b b' (one_group _ ex_group) ex_dashes ex_pl EP (or_introl eq_refl)
           (or_introl eq_refl) C ex_plain ex_objects ex_custom E E').
Qed.

(** The functions and types shown, and the methods of the object. *)
Example ex_names :
  match ci_bindings ex_conf (g_items ex) with
  | Ok b => map (fun k => name_of (c_item k)) (b_functions b) = [S_ "f"] /\
            length (b_types b) = 4%nat /\
            flat_map (fun y => map (fun k => name_of (c_item k)) (y_methods y)) (b_types b) =
              [S_ "run"; S_ "first"; S_ "second"]
  | _ => False
  end.
Proof. vm_compute. repeat split. Qed.
