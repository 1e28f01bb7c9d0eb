From Verif Require Import Base Meta_Types Path_Types Path_Spec Path_Model Path_Claims Path_Decide Path_Refute
  Pub_Spec Pub_Model Pub_Claims Pub_Decide.

Ltac tree_ := apply tree_ok; reflexivity.
Ltac own_ := apply own_addresses_ok; reflexivity.
Ltac asked_ := eexists _, _; split; reflexivity.
Lemma refers_one r self m x n it : reserved x = false -> top_module self = Some m -> in_udl r m x n = [] ->
  described r m x n = [] -> declared r m x n = [it] -> uses r m x = [] ->
  refers r self (Path false [x]) n (Some (it :: self)).
Proof.
  intros A B C D E F. eapply refers_here; try reflexivity; [|apply goes_end].
  eapply (m_declared _ _ m); eauto. rewrite F. apply used_nil.
Qed.

(** A private record: [#[derive(uniffi::Record)] struct X {}]. *)
Definition priv := it_ 1 "X" Private (KRecord false).
Definition one_private : ir := Ir [(0, [priv])]%nat [(S_ "k", root0)].
Lemma pub_visible_refuted_ : ~ pub_visible_statement.
Proof.
  intro H. destruct (public one_private 20 20 [priv; root0] (PCache fresh [])) as [[o c]|] eqn:E; [|vm_compute in E; discriminate].
  assert (F : o = Found (Some (Names [S_ "k"] (S_ "X") None))) by (vm_compute in E; now injection E as <- _). subst o.
  assert (C : Private = Public); [|discriminate].
  refine (H one_private 20%nat 20%nat [priv; root0] priv root0 _ _ _ _ _ _ E); [tree_ | own_ | apply place0; cbn; auto | asked_].
Qed.

(** A record hidden by another of that name:
<<
    mod a { #[derive(uniffi::Record)] #[uniffi(name = "Inner")] pub struct X {} }
    pub use a::*;
    #[derive(uniffi::Record)] pub struct X {}
>> *)
Definition hidden := Item (Src 5) (S_ "X") (Some (S_ "Inner")) Public (KRecord false).
Definition hider := it_ 6 "X" Public (KRecord false).
Definition hidden_src : ir :=
  Ir [(0, [it_ 1 "a" Private (KModule 1); it_ 7 "" Public (KGlob (p_ ["a"]%string)); hider]); (1, [hidden])]%nat
     [(S_ "k", root0)].
Definition priv_a := it_ 1 "a" Private (KModule 1).
Lemma place1 r a it m : In (S_ "k", root0) (roots r) -> In a (items_of r 0) -> i_kind a = KModule m -> In it (items_of r m) ->
  place r [it; a; root0].
Proof. intros A B C D. econstructor; eauto. now apply place0. Qed.
Lemma pub_refers_refuted_ : ~ pub_refers_statement.
Proof.
  intro H. destruct (public hidden_src 20 20 [hidden; priv_a; root0] (PCache fresh [])) as [[o c]|] eqn:E; [|vm_compute in E; discriminate].
  assert (F : o = Found (Some (Names [S_ "k"] (S_ "Inner") (Some (S_ "X"))))) by (vm_compute in E; now injection E as <- _). subst o.
  destruct (H hidden_src 20%nat 20%nat [hidden; priv_a; root0] hidden root0 _ _ [root0] (Some [hider; root0])
    ltac:(tree_) ltac:(own_) ltac:(eapply (place1 _ _ _ 1%nat); cbn; auto) ltac:(asked_) E) as (i & [= <-] & a & s & [= <- <-] & C).
  - eapply pm_root. reflexivity.
  - reflexivity.
  - apply (refers_one _ _ 0%nat); reflexivity.
  - discriminate.
Qed.

(** [mod a { #[uniffi::export] pub fn f() {} } pub use a::*;]. *)
Definition fn_f := it_ 5 "f" Public KFn.
Definition functions : ir :=
  Ir [(0, [priv_a; it_ 7 "" Public (KGlob (p_ ["a"]%string))]); (1, [fn_f])]%nat [(S_ "k", root0)].
Lemma functions_a : refers functions [root0] (p_ ["a"]%string) NsType (Some [priv_a; root0]).
Proof. apply (refers_one _ _ 0%nat); reflexivity. Qed.
Lemma pub_functions_refuted_ : ~ pub_functions_statement.
Proof.
  intro H. destruct (public functions 20 20 [fn_f; priv_a; root0] (PCache fresh [])) as [[o c]|] eqn:E; [|vm_compute in E; discriminate].
  destruct (H functions 20%nat 20%nat [fn_f; priv_a; root0] fn_f root0 o c [root0] (S_ "f") [fn_f; priv_a; root0]
    ltac:(tree_) ltac:(own_) ltac:(eapply (place1 _ _ _ 1%nat); cbn; auto) ltac:(asked_) eq_refl) as (nm & C).
  - intros q m it p P TM I K.
    assert (X : m = 0%nat /\ p = p_ ["a"]%string).
    { unfold items_of in I. cbn in I. destruct m as [| [| m]]; cbn in I.
      - destruct I as [<- | [<- | []]]; [discriminate | injection K as <-; auto].
      - destruct I as [<- | []]. discriminate.
      - destruct I. }
    destruct X as [-> ->]. exists [priv_a; root0], 1%nat. split; [|reflexivity].
    assert (Q : q = [root0]); [|subst q; exact functions_a].
    refine (Path_Proofs.place_key functions 0%nat _ _ _ P _ TM _); [tree_ | apply place_k; now left | reflexivity].
  - eapply pm_root. reflexivity.
  - eapply (of_glob _ _ _ _ 0%nat _ _ [priv_a; root0] 1%nat); [reflexivity | now right; left | reflexivity | reflexivity | exact functions_a | reflexivity |].
    eapply (of_own _ _ _ _ 1%nat); try reflexivity. now left.
  - exists fn_f, [priv_a; root0]. split; reflexivity.
  - exact E.
  - subst o. vm_compute in E. discriminate.
Qed.

(** [mod inner { pub mod m { #[derive(uniffi::Record)] pub struct X {} } } pub use inner::m;]. *)
Definition inner_ := it_ 1 "inner" Private (KModule 1).
Definition mod_m := it_ 2 "m" Public (KModule 2).
Definition rec_x_ := it_ 5 "X" Public (KRecord false).
Definition reexported : ir :=
  Ir [(0, [inner_; it_ 7 "m" Public (KUse (p_ ["inner"; "m"]%string))]); (1, [mod_m]); (2, [rec_x_])]%nat [(S_ "k", root0)].
Lemma reexported_m : refers reexported [root0] (p_ ["inner"; "m"]%string) NsType (Some [mod_m; inner_; root0]).
Proof.
  eapply refers_here; [reflexivity | reflexivity | |].
  - eapply (m_declared _ _ 0%nat); try reflexivity. apply used_nil.
  - eapply goes_on; [|apply goes_end]. eapply (m_declared _ _ 1%nat); try reflexivity. apply used_nil.
Qed.
Lemma pub_modules_refuted_ : ~ pub_modules_statement.
Proof.
  intro H.
  assert (P : place reexported [rec_x_; mod_m; inner_; root0]).
  { econstructor; [eapply (place1 _ _ _ 1%nat); cbn; auto | reflexivity | now left]. }
  destruct (public reexported 20 20 [rec_x_; mod_m; inner_; root0] (PCache fresh [])) as [[o c]|] eqn:E; [|vm_compute in E; discriminate].
  destruct (H reexported 20%nat 20%nat [rec_x_; mod_m; inner_; root0] rec_x_ root0 o c [mod_m; inner_; root0] (S_ "X") [rec_x_; mod_m; inner_; root0]
    ltac:(tree_) ltac:(own_) P ltac:(asked_) ltac:(discriminate) ltac:(discriminate)) as (nm & C).
  - apply settled_ok; [tree_|]. constructor; [|constructor]. exists [root0]. split; [apply place_k; now left|].
    split; [reflexivity|]. cbn. exists (Some [mod_m; inner_; root0]). exact reexported_m.
  - eapply pr_offered with (q := [root0]) (x := S_ "m") (k := 2%nat).
    + eapply pr_root. reflexivity.
    + apply (of_use _ _ _ _ 0%nat (it_ 7 "m" Public (KUse (p_ ["inner"; "m"]%string))) (p_ ["inner"; "m"]%string)); try reflexivity.
      * now right; left.
      * exact reexported_m.
    + reflexivity.
    + now intros it s [= <- <-].
  - eapply (of_own _ _ _ _ 2%nat); try reflexivity. now left.
  - exists rec_x_, [mod_m; inner_; root0]. split; reflexivity.
  - exact E.
  - subst o. vm_compute in E. discriminate.
Qed.

(** [#[derive(uniffi::Enum)] pub enum E { … } pub use E::*; #[derive(uniffi::Record)] pub struct X {}]. *)
Definition enum_e := it_ 1 "E" Public (KEnum false).
Definition variants : ir :=
  Ir [(0, [enum_e; it_ 7 "" Public (KGlob (p_ ["E"]%string)); rec_x_])]%nat [(S_ "k", root0)].
Lemma pub_enum_globs_refuted_ : ~ pub_enum_globs_statement.
Proof.
  intro H. destruct (public variants 20 20 [rec_x_; root0] (PCache fresh [])) as [[o c]|] eqn:E; [|vm_compute in E; discriminate].
  destruct (H variants 20%nat 20%nat [rec_x_; root0] rec_x_ root0 o c [root0] (S_ "X") [rec_x_; root0]
    ltac:(tree_) ltac:(own_) ltac:(apply place0; cbn; auto) ltac:(asked_) ltac:(discriminate) ltac:(discriminate)) as (nm & C).
  - intros q m it p P TM I K.
    assert (X : m = 0%nat /\ p = p_ ["E"]%string).
    { unfold items_of in I. cbn in I. destruct m as [| m]; cbn in I; [|destruct I].
      destruct I as [<- | [<- | [<- | []]]]; try discriminate K. injection K as <-; auto. }
    destruct X as [-> ->]. exists [enum_e; root0].
    assert (Q : q = [root0]); [|subst q; apply (refers_one _ _ 0%nat); reflexivity].
    refine (Path_Proofs.place_key variants 0%nat _ _ _ P _ TM _); [tree_ | apply place_k; now left | reflexivity].
  - eapply pm_root. reflexivity.
  - eapply (of_own _ _ _ _ 0%nat); try reflexivity. now right; right; left.
  - exists rec_x_, [root0]. split; reflexivity.
  - exact E.
  - subst o. vm_compute in E. discriminate.
Qed.

(** [#[derive(uniffi::Record)] #[uniffi(name = "Y")] pub struct X {} #[uniffi::export] pub fn X() {}]. *)
Definition rec_named := Item (Src 1) (S_ "X") (Some (S_ "Y")) Public (KRecord false).
Definition fn_x := it_ 2 "X" Public KFn.
Definition namesakes : ir := Ir [(0, [rec_named; fn_x])]%nat [(S_ "k", root0)].
Lemma pub_cached_always_refuted_ : ~ pub_cached_always_statement.
Proof.
  intro H. destruct (public namesakes 20 20 [rec_named; root0] (PCache fresh [])) as [[o c]|] eqn:E; [|vm_compute in E; discriminate].
  assert (RC : reached namesakes 20 20 c).
  { eapply reached_public; [apply reached_start | | | exact E]; [apply place0; cbn; auto|].
    exists rec_named, [root0]. split; [reflexivity | discriminate]. }
  destruct (public namesakes 20 20 [fn_x; root0] c) as [[o' c']|] eqn:E'.
  2:{ vm_compute in E. injection E as <- <-. vm_compute in E'. discriminate. }
  assert (F : o' = Found (Some (Names [S_ "k"] (S_ "Y") (Some (S_ "X"))))).
  { vm_compute in E. injection E as <- <-. vm_compute in E'. now injection E' as <- _. }
  subst o'.
  assert (C : found_names namesakes fn_x root0 (Names [S_ "k"] (S_ "Y") (Some (S_ "X")))).
  { refine (H namesakes 20%nat 20%nat [fn_x; root0] _ _ _ _ _ _ _ _ _ _ RC E'); [tree_ | own_ | apply place0; cbn; auto | | asked_].
    exists fn_x, [root0]. split; [reflexivity | discriminate]. }
  destruct C as [C _]. discriminate.
Qed.
