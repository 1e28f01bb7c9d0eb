(** The hypotheses of the theorems on public paths can be met. *)
From Verif Require Import Base Meta_Types Path_Types Path_Spec Path_Model Path_Claims Path_Decide Path_Refute
  Pub_Spec Pub_Model Pub_Claims Pub_Decide Pub_Refute.

(** Crate [k]:
<<
    pub mod m1 { pub use crate::nonpub::*; }
    mod nonpub {
        #[derive(uniffi::Record)] pub struct R3 {}
        #[derive(uniffi::Record)] #[uniffi(name = "Four")] pub struct R4 {}
        pub use super::*;
    }
    pub use nonpub::R4 as Renamed;
    mod lost { #[derive(uniffi::Record)] pub struct R5 {} }
>> *)
Definition m1 := it_ 1 "m1" Public (KModule 1).
Definition nonpub := it_ 2 "nonpub" Private (KModule 2).
Definition lost := it_ 3 "lost" Private (KModule 3).
Definition r3 := it_ 4 "R3" Public (KRecord false).
Definition r4 := Item (Src 5) (S_ "R4") (Some (S_ "Four")) Public (KRecord false).
Definition r5 := it_ 6 "R5" Public (KRecord false).
Definition g1 := it_ 7 "" Public (KGlob (p_ ["crate"; "nonpub"]%string)).
Definition g2 := it_ 8 "" Public (KGlob (p_ ["super"]%string)).
Definition u4 := it_ 9 "Renamed" Public (KUse (p_ ["nonpub"; "R4"]%string)).
Definition paths : ir :=
  Ir [(0, [m1; nonpub; u4; lost]); (1, [g1]); (2, [r3; r4; g2]); (3, [r5])]%nat [(S_ "k", root0)].
Example paths_tree : tree paths /\ own_addresses paths.
Proof. split; [tree_ | own_]. Qed.
Example paths_places : place paths [r3; nonpub; root0] /\ asked [r3; nonpub; root0] r3 root0 /\ ident r3 <> None.
Proof. split; [eapply (place1 _ _ _ 2%nat); cbn; auto|]. split; [asked_ | discriminate]. Qed.
Lemma nonpub_ : refers paths [m1; root0] (p_ ["crate"; "nonpub"]%string) NsType (Some [nonpub; root0]).
Proof.
  eapply refers_here; [reflexivity | reflexivity | apply m_crate; reflexivity|]. eapply goes_on; [|apply goes_end].
  eapply (m_declared _ _ 0%nat); try reflexivity. apply used_nil.
Qed.
Example paths_settled : settled paths NsType.
Proof.
  apply settled_ok; [tree_|]. constructor; [|constructor; [|constructor; [|constructor]]].
  - exists [root0]. split; [apply place_k; now left|]. split; [reflexivity|]. cbn.
    exists (Some [r4; nonpub; root0]). eapply refers_here; [reflexivity | reflexivity | |].
    + eapply (m_declared _ _ 0%nat); try reflexivity. apply used_nil.
    + eapply goes_on; [|apply goes_end]. eapply (m_declared _ _ 2%nat); try reflexivity. apply used_nil.
  - exists [m1; root0]. split; [apply place0; cbn; auto|]. split; [reflexivity|]. cbn.
    exists (Some [nonpub; root0]). split; [exact nonpub_|]. intros i [= <-]. exists 2%nat. reflexivity.
  - exists [nonpub; root0]. split; [apply place0; cbn; auto|]. split; [reflexivity|]. cbn.
    exists (Some [root0]). split.
    + eapply refers_here; [reflexivity | reflexivity | apply m_super; [reflexivity | discriminate] | apply goes_end].
    + intros i [= <-]. exists 0%nat. reflexivity.
Qed.
Example paths_offered : pub_module paths root0 [m1; root0] /\
  does_offer paths NsType [m1; root0] (S_ "R3") [r3; nonpub; root0] /\ is_path_to r3 [r3; nonpub; root0].
Proof.
  split; [eapply (pm_child _ _ _ 0%nat); try reflexivity; [eapply pm_root; reflexivity | now left]|].
  split; [|exists r3, [nonpub; root0]; split; reflexivity].
  eapply (of_glob _ _ _ _ 1%nat g1 _ [nonpub; root0] 2%nat); [reflexivity | now left | reflexivity | reflexivity | exact nonpub_ | reflexivity|].
  eapply (of_own _ _ _ _ 2%nat); try reflexivity. now left.
Qed.
(** All four are asked for, one after the other. *)
Fixpoint asks (l : list rpath) (c : pcache) : list (option (out (option names))) :=
  match l with
  | [] => []
  | q :: l =>
      match public paths (depth_bound paths []) 10 q c with
      | Some (o, c) => Some o :: asks l c
      | None => [None]
      end
  end.
Example paths_answers :
  asks [[r3; nonpub; root0]; [r4; nonpub; root0]; [r5; lost; root0]; [r3; nonpub; root0]] (PCache fresh []) =
  [Some (Found (Some (Names [S_ "k"; S_ "m1"] (S_ "R3") None)));
   Some (Found (Some (Names [S_ "k"] (S_ "Four") (Some (S_ "Renamed")))));
   Some (Found None);
   Some (Found (Some (Names [S_ "k"; S_ "m1"] (S_ "R3") None)))].
Proof. vm_compute. reflexivity. Qed.
Example paths_reached : exists c, reached paths (depth_bound paths []) 10 c /\ p_known c <> [].
Proof.
  destruct (public paths (depth_bound paths []) 10 [r3; nonpub; root0] (PCache fresh [])) as [[o c]|] eqn:E; [|vm_compute in E; discriminate].
  exists c. split.
  - eapply reached_public; [apply reached_start | | | exact E]; [eapply (place1 _ _ _ 2%nat); cbn; auto|].
    exists r3, [nonpub; root0]. split; [reflexivity | discriminate].
  - vm_compute in E. injection E as _ <-. discriminate.
Qed.
Example paths_bounds : (modules_of paths < 10)%nat /\ (modules_of paths < depth_bound paths [])%nat.
Proof. vm_compute. split; repeat constructor. Qed.

(** No two paths in words alike: the hypothesis of the theorem on the cache of answers. *)
Definition few : ir := Ir [(0, [m1; u4]); (1, [r3; r4])]%nat [(S_ "k", root0)].
Example few_one : one_of_each few.
Proof.
  assert (A : forall q, place few q -> has_name q ->
    q = [root0] \/ q = [m1; root0] \/ q = [r3; m1; root0] \/ q = [r4; m1; root0]).
  { intros q P. induction P as [x i I | p m self i P IH K I | b]; intros (t & up & E & N).
    - destruct I as [I | []]. injection I as _ <-. auto.
    - assert (HN : has_name (p :: self)). { exists p, self. split; auto. unfold ident. now rewrite K. }
      destruct (IH HN) as [C | [C | [C | C]]]; injection C as -> ->; try discriminate K; injection K as <-.
      + destruct I as [<- | [<- | []]]; auto. injection E as <- <-. now elim N.
      + destruct I as [<- | [<- | []]]; auto.
    - exfalso. injection E as <- <-. now elim N. }
  intros a b Pa Pb Na Nb E.
  destruct (A a Pa Na) as [-> | [-> | [-> | ->]]], (A b Pb Nb) as [-> | [-> | [-> | ->]]]; try reflexivity; discriminate E.
Qed.
