From Verif Require Import Base Meta_Types Path_Types Path_Spec Path_Model Path_Claims Path_Decide.

Definition it_ (i : nat) (x : string) (v : vis) (k : kind) : item := Item (Src i) (S_ x) None v k.
Definition p_ (l : list string) : path := Path false (map S_ l).
Definition q_ (self : rpath) (l : list string) (n : ns) : query := (self, p_ l, n).

(** Two modules that re-export each other, the first also a third:
<<
    pub mod a { pub use crate::b::*; pub use crate::c::*; }
    pub mod b { pub use crate::a::*; }
    pub mod c { #[derive(uniffi::Record)] pub struct Y {} }
>> *)
Definition root0 := it_ 0 "k" Public (KModule 0).
Definition mod_a := it_ 1 "a" Public (KModule 1).
Definition mod_b := it_ 2 "b" Public (KModule 2).
Definition mod_c := it_ 3 "c" Public (KModule 3).
Definition rec_y := it_ 4 "Y" Public (KRecord false).
Definition circle : ir :=
  Ir [(0, [mod_a; mod_b; mod_c]);
      (1, [it_ 5 "" Public (KGlob (p_ ["crate"; "b"]%string)); it_ 6 "" Public (KGlob (p_ ["crate"; "c"]%string))]);
      (2, [it_ 7 "" Public (KGlob (p_ ["crate"; "a"]%string))]);
      (3, [rec_y])]%nat [(S_ "k", root0)].
Lemma place0 r l : In (S_ "k", root0) (roots r) -> In l (items_of r 0) -> place r [l; root0].
Proof. intros A B. econstructor; eauto. econstructor; eauto. reflexivity. Qed.

Lemma independent_refuted_ : ~ independent_statement.
Proof.
  intro H.
  specialize (H circle 20%nat [q_ [mod_a; root0] ["Y"]%string NsType] (q_ [mod_b; root0] ["Y"]%string NsType)
    [Found [rec_y; mod_c; root0]] (Fail NotFound)).
  destruct (session circle 20 ([q_ [mod_a; root0] ["Y"]%string NsType] ++ [q_ [mod_b; root0] ["Y"]%string NsType]) fresh)
    as [[os c]|] eqn:E1; [|vm_compute in E1; discriminate].
  destruct (session circle 20 [q_ [mod_b; root0] ["Y"]%string NsType] fresh) as [[os' c']|] eqn:E2; [|vm_compute in E2; discriminate].
  specialize (H c (Found [rec_y; mod_c; root0]) c').
  assert (C : @Fail rpath NotFound = Found [rec_y; mod_c; root0]); [|discriminate].
  apply H.
  - apply tree_ok. reflexivity.
  - intros self p n [[= <- <- <-] | [[= <- <- <-] | []]]; apply place0; cbn; auto.
  - rewrite <- E1. vm_compute in E1. injection E1 as <- <-. now vm_compute.
  - rewrite <- E2. vm_compute in E2. injection E2 as <- <-. now vm_compute.
Qed.

(** A glob whose module comes through another glob; [dep] is another crate:
<<
    // crate k                         // crate dep
    use dep::*;                        pub mod bar { #[derive(uniffi::Record)] pub struct X {} }
    use bar::*;
>> *)
Definition root1 := it_ 10 "dep" Public (KModule 10).
Definition mod_bar := it_ 11 "bar" Public (KModule 11).
Definition rec_x := it_ 12 "X" Public (KRecord false).
Definition chain : ir :=
  Ir [(0, [it_ 1 "" Private (KGlob (p_ ["dep"]%string)); it_ 2 "" Private (KGlob (p_ ["bar"]%string))]);
      (10, [mod_bar]); (11, [rec_x])]%nat [(S_ "k", root0); (S_ "dep", root1)].
Lemma place_k r : In (S_ "k", root0) (roots r) -> place r [root0].
Proof. econstructor; eauto. Qed.
Lemma undeclared_ r self m x n : reserved x = false -> top_module self = Some m -> in_udl r m x n = [] -> declared r m x n = [] ->
  undeclared r self x n.
Proof.
  intros A B C D. split; auto. intros m' TM. rewrite B in TM. injection TM as <-. auto.
Qed.
Lemma chain_refers : may_refer chain [root0] (p_ ["X"]%string) NsType [rec_x; mod_bar; root1].
Proof.
  apply may_from_here; [reflexivity | discriminate|].
  eapply may_step; [|apply may_stop].
  eapply (may_star _ _ 0%nat) with (p := p_ ["bar"]%string); try reflexivity; [now right; left|].
  apply may_from_here; [reflexivity | discriminate|].
  eapply may_step with (b := [mod_bar; root1]).
  - eapply (may_star _ _ 0%nat) with (p := p_ ["dep"]%string); try reflexivity; [now left|].
    apply (may_from_crate _ _ _ _ (S_ "dep") [S_ "bar"] root1); try reflexivity; [|now right; left|].
    + intros _ _ x rest [= <- <-]. eapply (undeclared_ _ _ 0%nat); reflexivity.
    + eapply may_step; [|apply may_stop].
      apply (may_decl _ _ 10%nat); try reflexivity; [right; split; reflexivity | discriminate].
  - eapply may_step; [|apply may_stop].
    apply (may_decl _ _ 11%nat); try reflexivity; [right; split; reflexivity | discriminate].
Qed.
Lemma not_missing_refuted_ : ~ not_missing_statement.
Proof.
  intro H. destruct (lookup chain 60 [root0] (p_ ["X"]%string) NsType fresh) as [[o c]|] eqn:E; [|vm_compute in E; discriminate].
  refine (H chain 60%nat [root0] (p_ ["X"]%string) NsType _ _ _ _ _ chain_refers E _).
  - apply tree_ok. reflexivity.
  - apply place_k. now left.
  - vm_compute in E. now injection E as <- _.
Qed.

(** A crate handed on: [pub mod a { pub use dep; }], and [crate::a::dep::bar::X]. *)
Definition handed : ir :=
  Ir [(0, [mod_a]); (1, [it_ 1 "dep" Public (KUse (p_ ["dep"]%string))]); (10, [mod_bar]); (11, [rec_x])]%nat
     [(S_ "k", root0); (S_ "dep", root1)].
Definition handed_path : path := p_ ["crate"; "a"; "dep"; "bar"; "X"]%string.
Lemma handed_refers : may_refer handed [root0] handed_path NsType [rec_x; mod_bar; root1].
Proof.
  apply may_from_here; [reflexivity | discriminate|]. cbn [segs handed_path p_ map].
  eapply may_step; [apply may_crate; reflexivity|].
  eapply may_step with (b := [mod_a; root0]).
  { apply (may_decl _ _ 0%nat); try reflexivity; [right; split; reflexivity | discriminate]. }
  eapply may_step with (b := [root1]).
  { eapply (may_use _ _ 1%nat) with (p := p_ ["dep"]%string); try reflexivity; [now left|].
    apply (may_from_crate _ _ _ _ (S_ "dep") [] root1); try reflexivity; [|now right; left|apply may_stop].
    intros _ _ x rest [= <- <-]. eapply (undeclared_ _ _ 1%nat); reflexivity. }
  eapply may_step with (b := [mod_bar; root1]).
  { apply (may_decl _ _ 10%nat); try reflexivity; [right; split; reflexivity | discriminate]. }
  eapply may_step; [|apply may_stop].
  apply (may_decl _ _ 11%nat); try reflexivity; [right; split; reflexivity | discriminate].
Qed.
Lemma not_missing_without_globs_refuted_ : ~ not_missing_without_globs_statement.
Proof.
  intro H. destruct (lookup handed 60 [root0] handed_path NsType fresh) as [[o c]|] eqn:E; [|vm_compute in E; discriminate].
  refine (H handed 60%nat [root0] handed_path NsType _ _ _ _ _ _ handed_refers E _).
  - apply tree_ok. reflexivity.
  - apply place_k. now left.
  - intros m it p I K. unfold items_of in I. cbn in I.
    repeat (match goal with
            | H : In _ (if ?b then _ else _) |- _ => destruct b
            | H : In _ (match ?k with _ => _ end) |- _ => destruct k
            | H : In _ (_ :: _) |- _ => destruct H as [<- | H]; [discriminate K|]
            | H : In _ [] |- _ => destruct H
            end).
  - vm_compute in E. now injection E as <- _.
Qed.

(** [struct S; fn f() -> self::S]. *)
Definition rec_s := it_ 20 "S" Public (KRecord false).
Definition single : ir := Ir [(0, [rec_s])]%nat [(S_ "k", root0)].
Lemma single_means : means single [root0] (S_ "S") NsType (Some [rec_s; root0]).
Proof. eapply (m_declared _ _ 0%nat); try reflexivity. apply used_nil. Qed.
Lemma self_refuted_ : ~ self_statement.
Proof.
  intro H. destruct (lookup single 20 [root0] (p_ ["self"; "S"]%string) NsType fresh) as [[o c]|] eqn:E; [|vm_compute in E; discriminate].
  assert (C : o = Found [rec_s; root0]).
  { refine (H single 20%nat [root0] 0%nat (S_ "S") NsType rec_s o c _ _ _ _ single_means E); try reflexivity.
    - apply tree_ok. reflexivity.
    - apply place_k. now left. }
  vm_compute in E. injection E as <- _. discriminate.
Qed.

(** [mod a { type Result<T> = … } use a::*;]: the alias is private, [Result] is the standard one. *)
Definition alias := it_ 30 "Result" Private KType.
Definition hiding : ir :=
  Ir [(0, [mod_a; it_ 31 "" Private (KGlob (p_ ["a"]%string))]); (1, [alias])]%nat [(S_ "k", root0)].
Lemma visible_refuted_ : ~ visible_statement.
Proof.
  intro H. destruct (lookup hiding 20 [root0] (p_ ["Result"]%string) NsType fresh) as [[o c]|] eqn:E; [|vm_compute in E; discriminate].
  assert (F : o = Found [alias; mod_a; root0]) by (vm_compute in E; now injection E as <- _). subst o.
  destruct (H hiding 20%nat [root0] _ _ _ _ ltac:(apply tree_ok; reflexivity) ltac:(apply place_k; now left) E) as [C | [inner C]].
  - discriminate.
  - apply (f_equal (@length item)) in C. rewrite app_length in C. cbn in C. rewrite Nat.add_comm in C. discriminate.
Qed.

(** [mod export;], and [#[export]]. *)
Definition mod_export := it_ 40 "export" Private (KModule 40).
Definition shadow : ir :=
  Ir [(0, [mod_export; it_ 41 "export" Private (KUse (p_ ["uniffi"; "export"]%string))])]%nat [(S_ "k", root0)].
Definition shadow' : ir := Ir [(0, [mod_export])]%nat [(S_ "k", root0)].
Lemma macro_refuted_ : ~ macro_statement.
Proof.
  intro H. destruct (lookup shadow' 20 [root0] (p_ ["export"]%string) NsMacro fresh) as [[o c]|] eqn:E; [|vm_compute in E; discriminate].
  assert (F : o = Found [mod_export; root0]) by (vm_compute in E; now injection E as <- _). subst o.
  destruct (H shadow' 20%nat [root0] _ _ _ _ ltac:(apply tree_ok; reflexivity) ltac:(apply place_k; now left) E) as [x C].
  discriminate.
Qed.

(** [use std::option::Option; use Option::*;]. *)
Definition panicking : ir :=
  Ir [(0, [it_ 50 "Option" Private (KUse (p_ ["std"; "option"; "Option"]%string));
           it_ 51 "" Private (KGlob (p_ ["Option"]%string))])]%nat [(S_ "k", root0)].
Lemma no_panic_refuted_ : ~ no_panic_statement.
Proof.
  intro H. destruct (lookup panicking 20 [root0] (p_ ["Rec"]%string) NsType fresh) as [[o c]|] eqn:E; [|vm_compute in E; discriminate].
  refine (H panicking 20%nat [root0] _ _ _ _ _ _ E _).
  - apply tree_ok. reflexivity.
  - apply place_k. now left.
  - vm_compute in E. now injection E as <- _.
Qed.
