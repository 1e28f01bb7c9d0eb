(** What configurations do otherwise (C63). *)
From Verif Require Import Base Meta_Types Group_Model Api_Types Api_Spec Api_Model Api_Claims Api_Refute.
From Verif Require Import Reach_Spec Univ_Spec Excl_Types Excl_Spec Excl_Model Excl_Claims Excl_Basics.
From Coq Require Import Permutation Sorted.
Local Open Scope string_scope.
Local Open Scope list_scope.

Lemma without_in {A} (P : A -> Prop) l l' x : without P l l' -> In x l' -> ~ P x.
Proof. induction 1 as [|y l l' Py W IH|y l l' Py W IH]; intros H; [destruct H|auto|]. destruct H as [<- | H]; auto. Qed.
Ltac numbered_tac := let n := fresh in intros n; unfold numbers; cbn [flat_map app];
  repeat (destruct (Meta_Eq.str_eq_dec _ n); cbn [app]); repeat constructor.
Ltac objects_tac := let J := fresh in let J' := fresh in let E := fresh in
  intros ? ? J J' E; items_cases; exact Logic.I || reflexivity.
Ltac owned_tac := let J := fresh in let R := fresh in
  intros ? ? J R; items_cases; try discriminate R; injection R as <-.
Ltac differ_tac := let J := fresh in let J' := fresh in let D := fresh in let E := fresh in
  intros ? ? J J' D E; items_cases; try (left; reflexivity); try (exfalso; apply D; reflexivity); try discriminate E.

(** The bindings, computed. *)
Ltac ci_of c g EB :=
  let e := eval vm_compute in (ci_bindings c (g_items g)) in
  match e with Ok ?b => assert (EB : ci_bindings c (g_items g) = Ok b) by (vm_compute; reflexivity) end.
Ltac pl_of c g EP EB :=
  let e := eval vm_compute in (pipeline [g]) in
  match e with Ok [?n] =>
    assert (EP : pipeline [g] = Ok [n]) by (vm_compute; reflexivity);
    let e' := eval vm_compute in (pl_bindings c n) in
    match e' with Ok ?b => assert (EB : pl_bindings c n = Ok b) by (vm_compute; reflexivity) end
  end.

(** *** Custom types stay in Kotlin, Swift and Ruby *)

Definition url : group := Group (S_ "a") (S_ "a") [MCustom (S_ "a") (S_ "Url") TString None].
Definition no_url : conf := Conf [S_ "Url"] [].
Lemma custom_refuted : ~ ci_true any (fun c _ items b => shows c items b).
Proof.
  intros H.
  ci_of no_url url EB.
  assert (X := H url no_url _ ltac:(unfold url; of_group_tac) ltac:(cbn [g_items url]; plain_tac)
                 ltac:(cbn [g_items url]; objects_tac) ltac:(cbn [g_items url]; numbered_tac) Logic.I EB).
  destruct X as (a & _ & _ & vs & W & F).
  inversion F as [|v y vs' ys S F']; subst. assert (L := without_in _ _ _ v W (or_introl eq_refl)).
  apply L. destruct S as [S _]. cbn [y_item ci_typ v_item] in S. rewrite <- S. exists (S_ "Url").
  split; [reflexivity|left; reflexivity].
Qed.

(** *** Renamed traits *)

Definition trait : group := Group (S_ "a") (S_ "a")
  [MCallback (S_ "a") (S_ "C") None; MTraitMethod (S_ "C") 0%Z (fn_ "a" "first" [] None);
   MTraitMethod (S_ "C") 1%Z (fn_ "a" "second" [] None)].
Definition renamed : conf := Conf [] [(S_ "C", S_ "Listener")].
Lemma trait_group : of_group trait.
Proof. unfold trait. of_group_tac. Qed.
Lemma renamed_refuted : ~ ci_true any (fun _ _ items b => links items b).
Proof.
  intros H.
  ci_of renamed trait EB.
  assert (X := H trait renamed _ trait_group ltac:(cbn [g_items trait]; plain_tac)
                 ltac:(cbn [g_items trait]; objects_tac) ltac:(cbn [g_items trait]; numbered_tac) Logic.I EB).
  destruct (X (Names_Model.init_callback_vtable_fn_symbol_name (S_ "a") (S_ "Listener"))) as (m & E); [vm_compute; auto|].
  clear H EB X. remember (Names_Model.init_callback_vtable_fn_symbol_name (S_ "a") (S_ "Listener")) as x eqn:Ex.
  vm_compute in Ex. destruct E as [s J _ E|s J E|s J E|s J _ E]; cbn [g_items trait] in J; items_cases; vm_compute in E;
    items_cases; subst; try discriminate; try (injection E as E; discriminate).
Qed.
Lemma renamed_tables_refuted : ~ ci_true (fun c _ items => whole_traits c items) (fun _ _ items b => tables items b).
Proof.
  intros H.
  ci_of renamed trait EB.
  assert (X := H trait renamed _ trait_group ltac:(cbn [g_items trait]; plain_tac)
                 ltac:(cbn [g_items trait]; objects_tac) ltac:(cbn [g_items trait]; numbered_tac)
                 ltac:(intros m d _ _ _ _ _ (k & _ & K); destruct K) EB).
  destruct X as (a & _ & T). destruct (T _ (or_introl eq_refl)) as (v & _ & I & _ & E).
  destruct (E _ eq_refl) as [E' _]. rewrite <- I in E'. vm_compute in E'. discriminate E'.
Qed.

(** *** A method that is left out of a table *)

Definition no_first : conf := Conf [S_ "C.first"] [].
Lemma slots_refuted : ~ ci_true (fun c _ items => keeps_traits c items) (fun _ _ items b => tables items b).
Proof.
  intros H.
  ci_of no_first trait EB.
  assert (X := H trait no_first _ trait_group ltac:(cbn [g_items trait]; plain_tac)
                 ltac:(cbn [g_items trait]; objects_tac) ltac:(cbn [g_items trait]; numbered_tac)
                 ltac:(intros m mp n n' _ _ _ K; destruct K) EB).
  destruct X as (a & (_ & _ & D & _) & T). destruct (T _ (or_introl eq_refl)) as (v & V & I & _ & E).
  destruct (E _ eq_refl) as [_ E']. rewrite Forall_forall in D. destruct (D v V) as (_ & (_ & _ & M & _) & _).
  assert (K : In (MTraitMethod (S_ "C") 0%Z (fn_ "a" "first" [] None)) (v_methods v)).
  { apply (proj2 M). right. split; [right; left; reflexivity|]. split; [reflexivity|]. rewrite <- I. reflexivity. }
  rewrite <- E' in K. vm_compute in K. destruct K as [K | []]. discriminate K.
Qed.

(** *** Python needs what it leaves out *)

Definition one_function : group := Group (S_ "a") (S_ "a") [MFunc (fn_ "a" "f" [] None)].
Definition no_f : conf := Conf [S_ "f"] [].
Lemma one_function_group : of_group one_function.
Proof. unfold one_function. of_group_tac. Qed.
Lemma needs_refuted : ~ pl_true any (fun c _ items b => needs_only c items b).
Proof.
  intros H.
  pl_of no_f one_function EP EB.
  assert (X := H [one_function] _ _ _ no_f _ (one_group _ one_function_group) ltac:(unfold one_function; no_dashes_tac)
                 ltac:(intros g K; items_cases; cbn [g_items one_function]; refine (conj _ (conj _ _));
                       [owned_tac|differ_tac|numbered_tac])
                 EP (or_introl eq_refl) (or_introl eq_refl) eq_refl Logic.I EB).
  destruct (X (Names_Model.fn_symbol_name (S_ "a") (S_ "f"))) as (m & (J & L & _) & _); [vm_compute; auto|].
  cbn [g_items one_function] in J. items_cases. apply L. exists (S_ "f"). split; [reflexivity | left; reflexivity].
Qed.

(** *** What is left out but used *)

Definition used : group := Group (S_ "a") (S_ "a") [rec_ "a" "R"; MFunc (fn_ "a" "f" [TRecord (S_ "a") (S_ "R")] None)].
Definition no_r : conf := Conf [S_ "R"] [].
Lemma used_group : of_group used.
Proof. unfold used. of_group_tac. Qed.
(** Types in the few items here. *)
Ltac insides := repeat match goal with H : inside _ (TOption _) |- _ => inversion H; subst; clear H
                                     | H : inside _ (TRecord _ _) |- _ => inversion H; subst; clear H end.
Lemma used_closed : items_closed (S_ "a") (g_items used).
Proof.
  intros m t u n J T I E. cbn [g_items used] in J. exists (rec_ "a" "R"). split; [left; reflexivity|].
  items_cases; vm_compute in T; items_cases; subst t; insides; injection E as <-; reflexivity.
Qed.
Lemma used_nested : never_nested no_r (S_ "a") (g_items used).
Proof.
  intros m t u J T I _. cbn [g_items used] in J. exists (S_ "R"). split; [|left; reflexivity].
  items_cases; vm_compute in T; items_cases; subst t; insides; reflexivity.
Qed.
Lemma used_custom : no_custom no_r (g_items used).
Proof. intros mp n b doc J. cbn [g_items used] in J. items_cases. Qed.
Lemma used_refuted : ~ ci_true (fun c crate items => no_custom c items /\ items_closed crate items /\ never_nested c crate items)
    (fun _ crate _ b => closed crate b).
Proof.
  intros H.
  ci_of no_r used EB.
  assert (X := H used no_r _ used_group ltac:(cbn [g_items used]; plain_tac)
                 ltac:(cbn [g_items used]; objects_tac) ltac:(cbn [g_items used]; numbered_tac)
                 (conj used_custom (conj used_closed used_nested)) EB).
  destruct (X (TRecord (S_ "a") (S_ "R")) (TRecord (S_ "a") (S_ "R")) (S_ "R")) as (y & Y & _); [|constructor|reflexivity|].
  - right. exists (MFunc (fn_ "a" "f" [TRecord (S_ "a") (S_ "R")] None)). split; [left; left; reflexivity|].
    vm_compute. auto.
  - vm_compute in Y. destruct Y.
Qed.
Ltac pl_tac := intros ? ?; items_cases; cbn [g_items]; refine (conj _ (conj _ _)); [owned_tac|differ_tac|numbered_tac].
Lemma python_used_refuted : ~ pl_true (fun c crate items => items_closed crate items /\ never_nested c crate items)
    (fun _ crate _ b => closed crate b).
Proof.
  intros H.
  pl_of no_r used EP EB.
  assert (X := H [used] _ _ _ no_r _ (one_group _ used_group) ltac:(unfold used; no_dashes_tac)
                 ltac:(unfold used; pl_tac) EP (or_introl eq_refl) (or_introl eq_refl) eq_refl
                 (conj used_closed used_nested) EB).
  destruct (X (TRecord (S_ "a") (S_ "R")) (TRecord (S_ "a") (S_ "R")) (S_ "R")) as (y & Y & _); [|constructor|reflexivity|].
  - right. exists (MFunc (fn_ "a" "f" [TRecord (S_ "a") (S_ "R")] None)). split; [left; left; reflexivity|].
    vm_compute. auto.
  - vm_compute in Y. destruct Y.
Qed.

(** *** Converters that are left over *)

Definition nested : group := Group (S_ "a") (S_ "a")
  [rec_ "a" "R"; MFunc (fn_ "a" "f" [TOption (TRecord (S_ "a") (S_ "R"))] None)].
Definition neither : conf := Conf [S_ "R"; S_ "f"] [].
Lemma nested_group : of_group nested.
Proof. unfold nested. of_group_tac. Qed.
Lemma nested_closed : items_closed (S_ "a") (g_items nested).
Proof.
  intros m t u n J T I E. cbn [g_items nested] in J. exists (rec_ "a" "R"). split; [left; reflexivity|].
  items_cases; vm_compute in T; items_cases; subst t; insides; try discriminate E; injection E as <-; reflexivity.
Qed.
Lemma nested_unused : unused neither (S_ "a") (g_items nested).
Proof.
  intros m t (J & L & _) _ _. cbn [g_items nested] in J.
  items_cases; apply L; eexists; (split; [reflexivity|]); cbn [excluded neither]; [left; reflexivity | right; left; reflexivity].
Qed.
Lemma nested_custom : no_custom neither (g_items nested).
Proof. intros mp n b doc J. cbn [g_items nested] in J. items_cases. Qed.
Lemma nested_refuted : ~ ci_true (fun c crate items => no_custom c items /\ items_closed crate items /\ unused c crate items)
    (fun _ crate _ b => closed crate b).
Proof.
  intros H.
  ci_of neither nested EB.
  assert (X := H nested neither _ nested_group ltac:(cbn [g_items nested]; plain_tac)
                 ltac:(cbn [g_items nested]; objects_tac) ltac:(cbn [g_items nested]; numbered_tac)
                 (conj nested_custom (conj nested_closed nested_unused)) EB).
  destruct (X (TOption (TRecord (S_ "a") (S_ "R"))) (TRecord (S_ "a") (S_ "R")) (S_ "R")) as (y & Y & _).
  - left. vm_compute. auto.
  - repeat constructor.
  - reflexivity.
  - vm_compute in Y. destruct Y.
Qed.
Lemma python_nested_refuted : ~ pl_true (fun c crate items => items_closed crate items /\ unused c crate items)
    (fun _ crate _ b => closed crate b).
Proof.
  intros H.
  pl_of neither nested EP EB.
  assert (X := H [nested] _ _ _ neither _ (one_group _ nested_group) ltac:(unfold nested; no_dashes_tac)
                 ltac:(unfold nested; pl_tac) EP (or_introl eq_refl) (or_introl eq_refl) eq_refl
                 (conj nested_closed nested_unused) EB).
  destruct (X (TOption (TRecord (S_ "a") (S_ "R"))) (TRecord (S_ "a") (S_ "R")) (S_ "R")) as (y & Y & _).
  - left. vm_compute. auto.
  - repeat constructor.
  - reflexivity.
  - vm_compute in Y. destruct Y.
Qed.
